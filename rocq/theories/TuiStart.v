(** The terminal application: its start, and whole sessions. *)
From Coq Require Import ZArith List Bool String Lia Permutation QArith Qcanon.
From Verif Require Import Num GoBase VarModel GoFacts Tuples SpecFactor FactorFacts FactorAt XnumFacts ExactFactor FactorThms
  VEModel SpecVE VEWorlds VEFacts VEHidden VESolve VEThms VEUtil SpecPolicy VEPolicy VEOptimal NetModel SpecNet NetNew NetVars NetFactors NetVE NetSums
  NetQuery NetEvents NetUtil NetMass NetExtra NetHistory NetCor SpecNetPolicy NetPolicy NetPolicyStep NetPolicyLoop NetPolicyThms
  CliModel DocModel TrainFacts TuiModel SpecTui SpecApp TuiSolve TuiMove TuiGrid TuiDraw TuiCanvas TuiApp TuiTable TuiEvents TuiSession.
Import ListNotations.
Open Scope string_scope.
Open Scope list_scope.
Open Scope Z_scope.

Lemma foldM_pres {S X} (I : S -> Prop) (f : S -> X -> gores S) l : (forall s x s', I s -> f s x = Ok s' -> I s') -> forall s s', I s -> foldM f s l = Ok s' -> I s'.
Proof.
  intros Hf. induction l as [|x l IH]; intros s s' Hs E; cbn [foldM] in E; [congruence|]. destruct (f s x) as [s1| |] eqn:E1; try discriminate. cbn [gbind] in E. eapply IH; [|exact E]. eapply Hf; eauto.
Qed.

(** ** The names after SolvePolicies *)
Definition knows (n m : network xnum) : Prop :=
  n_vars m = n_vars n /\ n_tui m = n_tui n /\
  forall x v, var_named (n_vars n) x = Some v -> is_total n x = false -> exists e, sget_map (n_names m) x = Some e /\ en_var e = v.
Lemma to_ve_names sc t (n : network xnum) ev s names : NoDup (map nv_name (n_vars n)) -> zlen (n_vars n) <= 65536 -> to_ve sc t n ev = Ok (s, names) -> names = name_map (entries n).
Proof.
  intros Hnd Hc. unfold to_ve. rewrite (add_net_variables_ok n Hnd Hc). cbn [gbind]. destruct (foldM _ _ (n_factors n)) as [[[vs deps] fs]| |]; cbn [gbind]; try discriminate.
  destruct (policy_factors sc t n vs (all_entries n) ev) as [[vs' pfs]| |]; cbn [gbind]; try discriminate. destruct (prepare_utility_weights n); cbn [gbind]; try discriminate. congruence.
Qed.
Lemma entries_know (n m : network xnum) : NoDup (map nv_name (n_vars n)) -> n_vars m = n_vars n -> n_tui m = n_tui n ->
  forall x v, var_named (n_vars n) x = Some v -> is_total n x = false -> exists e, sget_map (name_map (entries m)) x = Some e /\ en_var e = v.
Proof.
  intros Hnd E1 E2 x v Hv Ht. pose proof Hnd as Hnd'. rewrite <- E1 in Hnd'. unfold var_named in Hv. apply find_some in Hv. destruct Hv as [Hin En]. apply String.eqb_eq in En. apply In_nth_error in Hin. destruct Hin as [k Hk].
  exists (ve_entry m (Z.of_nat k, v)). split; auto. apply (name_map_get _ _ _ (entries_names_nodup m Hnd')). split; [|exact En]. apply in_entries. exists k, v. rewrite E1. split; auto. split; auto. rewrite E2. intros Ek. unfold is_total in Ht. rewrite <- Ek, Nat2Z.id, Hk in Ht.
  rewrite En, String.eqb_refl, andb_true_r in Ht. lia.
Qed.
Lemma steps_names sc (n : network xnum) st : NoDup (map nv_name (n_vars n)) -> zlen (n_vars n) <= 65536 -> forall k t m n' t', n_vars m = n_vars n -> n_tui m = n_tui n ->
  policy_steps sc k t m st = (n', Ok t') -> k <> O \/ knows n m -> knows n n'.
Proof.
  intros Hnd Hc. induction k as [|k IH]; intros t m n' t' E1 E2 E Hk; cbn [policy_steps] in E.
  - injection E as <- <-. destruct Hk; [congruence|auto].
  - unfold assign_ve in E. destruct (to_ve sc t m []) as [[s names]| |] eqn:Ev; try discriminate. rewrite <- E1 in Hnd, Hc. pose proof (to_ve_names sc t m [] s names Hnd Hc Ev) as En. rewrite E1 in Hnd, Hc. pose proof (entries_know n m Hnd E1 E2) as Hek. rewrite <- En in Hek.
    destruct (ve_solve_policies sc s st) as [[s' [pols|]]| |]; try discriminate.
    + eapply IH; [| |exact E|]; [exact E1|exact E2|]. right. split; [exact E1|]. split; [exact E2|exact Hek].
    + injection E as <- <-. split; [exact E1|]. split; [exact E2|exact Hek].
Qed.
Lemma policies_names sc (n : network xnum) st n' tables : NoDup (map nv_name (n_vars n)) -> zlen (n_vars n) <= 65536 -> net_solve_policies sc n st = (n', Ok tables) ->
  knows n n' /\ NoDup (map fst tables).
Proof.
  intros Hnd Hc. unfold net_solve_policies. destruct (policy_steps sc _ 0 (with_policies n []) st) as [m r] eqn:E. destruct r as [tick| |]; try discriminate.
  assert (Hk : knows n m). { eapply (steps_names sc n st Hnd Hc); [| |exact E|]; auto. left. unfold count_decision_steps. destruct st; [destruct (List.length _)|]; discriminate. }
  destruct (foldM _ (m, []) _) as [[n1 res]| |] eqn:Ef; try discriminate. intros H. injection H as <- <-.
  assert (G : (fun z => knows n (fst z) /\ NoDup (map fst (snd z))) (n1, res)); [|exact G].
  revert Ef. apply (foldM_pres (fun z => knows n (fst z) /\ NoDup (map fst (snd z)))); [|split; [exact Hk|cbn [snd map]; constructor]]. intros [m1 r1] [name f] [m2 r2] [H1 H2] Es. cbn [fst snd] in *. destruct (policy_result m1 name f) as [[m3 r3]| |] eqn:Ep; try discriminate. cbn [gbind] in Es. injection Es as <- <-.
  split; [|apply (mset_NoDup String.eqb String.eqb_eq); auto]. unfold policy_result in Ep. destruct (sget_map (n_names m1) name); [|discriminate]. destruct (sget _ _); cbn [gbind] in Ep; try discriminate.
  unfold on_variables in Ep. destruct (n_ve m1); [|discriminate]. destruct (rearrange _ _ _) as [[vs x]| |]; cbn [gbind] in Ep; try discriminate. destruct (mapM _ _) as [given| |]; cbn [gbind] in Ep; try discriminate. injection Ep as <- <-. exact H1.
Qed.
Lemma knows_used n n' : knows n n' -> used_before n'.
Proof.
  intros (E1 & E2 & E3) x v Hv Ht. rewrite E1 in Hv. assert (is_total n x = false) by (unfold is_total in *; rewrite E1, E2 in Ht; auto). destruct (E3 x v Hv H) as (e & He & <-). eauto.
Qed.

(** ** Policies in the nodes *)
Lemma firstn_snoc {X} (l : list X) i x : nth_error l i = Some x -> firstn (S i) l = firstn i l ++ [x].
Proof. revert i. induction l as [|y l IH]; intros [|i] H; cbn [nth_error] in H; try discriminate; cbn [firstn List.app]; [congruence|]. rewrite <- (IH i H). reflexivity. Qed.
Definition policy_shown (tables : list (string * nfactor xnum)) (t : tnode) : tnode :=
  match sget_map tables (t_name t) with Some f => with_factor t f | None => t end.
Lemma mget_snoc {V} (l : list (string * V)) k v x : sget_map (l ++ [(k, v)]) x = match sget_map l x with Some w => Some w | None => if String.eqb x k then Some v else None end.
Proof. induction l as [|[a b] l IH]; cbn [List.app mget]; [destruct (String.eqb x k); auto|]. destruct (String.eqb x a); auto. Qed.
Lemma mget_perm {V} (l l' : list (string * V)) x : Permutation l l' -> NoDup (map fst l) -> sget_map l' x = sget_map l x.
Proof.
  intros Hp Hn. assert (Hn' : NoDup (map fst l')) by (eapply Permutation_NoDup; [apply Permutation_map; eauto|auto]). destruct (sget_map l x) as [v|] eqn:E.
  - apply (In_mget String.eqb String.eqb_eq); auto. eapply Permutation_in; eauto. apply (mget_In String.eqb String.eqb_eq); auto.
  - destruct (sget_map l' x) as [v|] eqn:E'; auto. apply (mget_In String.eqb String.eqb_eq) in E'. eapply Permutation_in in E'; [|apply Permutation_sym; eauto]. apply (In_mget String.eqb String.eqb_eq) in E'; auto. congruence.
Qed.
Lemma show_policies_ok sc nodes tables : NoDup (map t_name nodes) -> NoDup (map fst tables) -> (forall d, In d (map fst tables) -> In d (map t_name nodes)) ->
  show_policies sc nodes tables = Ok (map (policy_shown tables) nodes).
Proof.
  intros Hnn Hnt Hin. unfold show_policies. assert (Hp : Permutation tables (shuffle sc 0 tables)) by apply shuffle_perm. set (L := shuffle sc 0 tables) in *. clearbody L.
  assert (HnL : NoDup (map fst L)) by (eapply Permutation_NoDup; [apply Permutation_map; eauto|auto]).
  destruct (foldM_inv (fun i s => s = map (policy_shown (firstn i L)) nodes) (fun nodes '((name, f) : string * nfactor xnum) =>
    let idx := nodes_by_name nodes name in let! t := sget nodes idx in sset nodes idx (with_factor t f)) L nodes) as (s' & E & ->).
  - cbn [firstn]. rewrite (map_ext (policy_shown []) (fun t => t)), map_id; auto.
  - intros i s [name f] Hi ->. cbv zeta. set (s := map (policy_shown (firstn i L)) nodes).
    assert (Hname : forall l t, t_name (policy_shown l t) = t_name t) by (intros l t; unfold policy_shown; destruct (sget_map l (t_name t)); auto).
    assert (Es : map t_name s = map t_name nodes) by (unfold s; rewrite map_map; apply map_ext; intros; apply Hname).
    assert (Hd : In name (map t_name nodes)). { apply Hin. eapply Permutation_in; [apply Permutation_map; apply Permutation_sym; eauto|]. apply in_map_iff. exists (name, f). split; auto. eapply nth_error_In; eauto. }
    apply in_map_iff in Hd. destruct Hd as (t & Et & Ht). apply In_nth_error in Ht. destruct Ht as [k Hk].
    assert (Hks : nth_error s k = Some (policy_shown (firstn i L) t)) by (unfold s; rewrite nth_error_map, Hk; auto).
    assert (Hns : NoDup (map t_name s)) by (rewrite Es; auto).
    pose proof (by_name_at s Hns k _ Hks) as Eb. rewrite Hname, Et in Eb. rewrite Eb, (sget_ok _ _ _ Hks). cbn [gbind]. assert (k < List.length s)%nat by (apply nth_error_Some; congruence). rewrite sset_ok by auto. eexists. split; [reflexivity|].
    apply nth_error_ext. intros j. rewrite upd_nth_spec, nth_error_map. rewrite (firstn_snoc L i _ Hi).
    assert (Hno : sget_map (firstn i L) name = None).
    { apply (mget_None String.eqb String.eqb_eq). intros Hc. apply In_nth_error in Hc. destruct Hc as [q Hq]. rewrite nth_error_map in Hq. destruct (nth_error (firstn i L) q) as [z|] eqn:Ez; [|discriminate]. injection Hq as Hq.
      assert (q < i)%nat. { assert (q < List.length (firstn i L))%nat by (apply nth_error_Some; congruence). rewrite firstn_length in *. lia. }
      rewrite nth_error_firstn' in Ez. replace (q <? i)%nat with true in Ez by (symmetry; apply Nat.ltb_lt; auto). assert (q = i); [|lia]. eapply (proj1 (NoDup_nth_error (map fst L)) HnL); [rewrite map_length; apply nth_error_Some; congruence|]. rewrite !nth_error_map, Ez, Hi. cbn. congruence. }
    destruct (Nat.eqb_spec k j) as [<-|Hne]; cbn [andb].
    + replace (k <? List.length s)%nat with true by (symmetry; apply Nat.ltb_lt; auto). rewrite Hk. cbn [option_map]. f_equal. unfold policy_shown. rewrite mget_snoc, Et, Hno, String.eqb_refl. reflexivity.
    + unfold s. rewrite nth_error_map. destruct (nth_error nodes j) as [u|] eqn:Hu; auto. cbn [option_map]. f_equal. unfold policy_shown. rewrite mget_snoc. destruct (sget_map (firstn i L) (t_name u)); auto.
      destruct (String.eqb_spec (t_name u) name) as [Eu|]; auto. exfalso. apply Hne. eapply (proj1 (NoDup_nth_error (map t_name nodes)) Hnn); [rewrite map_length; apply nth_error_Some; congruence|]. rewrite !nth_error_map, Hk, Hu. cbn. congruence.
  - etransitivity; [exact E|]. f_equal. rewrite firstn_all. apply map_ext. intros t. unfold policy_shown. rewrite (mget_perm tables L); auto.
Qed.

(** ** The network at the start *)
Record started (n n' : network xnum) (tables : list (string * nfactor xnum)) : Prop := {
  sr_vars : n_vars n' = n_vars n;
  sr_factors : n_factors n' = n_factors n;
  sr_tui : n_tui n' = n_tui n;
  sr_info : n_info n' = n_info n;
  sr_name : n_name n' = n_name n;
  sr_wf : wf_network n';
  sr_complete : complete n';
  sr_nonneg : nonnegative n';
  sr_solved : solved n';
  sr_plain : plain_utilities n';
  sr_tables : forall d, In d (decisions n) -> exists f, sget_map tables d = Some f /\ returned_policy n d f;
  sr_none : forall d, ~ In d (decisions n) -> sget_map tables d = None;
  sr_keys : NoDup (map fst tables);
  sr_knows : knows n n'
}.
Lemma plain_same (n n' : network xnum) : n_vars n' = n_vars n -> n_factors n' = n_factors n -> n_tui n' = n_tui n -> plain_utilities n -> plain_utilities n'.
Proof. intros E1 E2 E3 H v Hv Hk Ht. rewrite E1 in Hv. rewrite E2. apply H; auto. unfold is_total in *. rewrite E1, E3 in Ht. auto. Qed.
Lemma start_decisions sc n : decision_network n -> no_forgetting n -> exists n' tables, net_solve_policies sc n true = (n', Ok tables) /\ started n n' tables /\ policies_solved n n' tables.
Proof.
  intros Hdn Hnf. destruct (solve_policies_ok sc n true Hdn Hnf) as (n' & tables & E & Hs). exists n', tables. split; auto. split; auto.
  pose proof (dn_wf _ Hdn) as Hwf. destruct (policies_names sc n true n' tables (wn_names n Hwf) (wn_count n Hwf) E) as [Hk Hnd].
  destruct (sv_base _ _ _ Hs) as (E1 & E2 & E3 & E4 & E5). pose proof (dn_wf _ (ps_net _ (sv_partly _ _ _ Hs))) as Hwf'. constructor; auto.
  - eapply solved_complete; eauto.
  - eapply solved_nonnegative; eauto.
  - intros v Hv Ht. pose proof (sv_open _ _ _ Hs) as Ho. destruct (has_key (n_policies n') (nv_name v)) eqn:Ek; auto. exfalso.
    assert (Hin : In (nv_name v) (open_ones n')); [|rewrite Ho in Hin; destruct Hin]. unfold open_ones. apply filter_In. rewrite Ek. split; auto. unfold decisions. apply in_map. apply filter_In. split; auto. unfold is_kind. rewrite Ht. auto.
  - apply (plain_same n n'); auto. apply (dn_utilities _ Hdn).
  - intros d Hd. eapply returned; eauto.
  - apply (sv_none _ _ _ Hs).
Qed.
Lemma start_plain sc n : decisions n = [] -> wf_network n -> complete n -> nonnegative n -> plain_utilities n -> n_policies n = [] ->
  exists n', net_solve_policies sc n true = (n', Ok []) /\ started n n' [].
Proof.
  intros Hdec Hwf Hco Hnn Hpl Hpo. assert (En : with_policies n [] = n) by (destruct n; cbn in *; subst; reflexivity).
  assert (Ec : count_decision_steps n true = 1%nat). { unfold count_decision_steps. rewrite decisions_count, Hdec. auto. }
  assert (Er : exists n' a b, net_solve_policies sc n true = (n', Ok []) /\ n' = with_solver n a b).
  { unfold net_solve_policies. rewrite En, Ec. cbn [policy_steps]. unfold assign_ve. destruct (to_ve_ok n Hwf sc 0 []) as (vs & fs & -> & Hcr).
    set (s0 := ve_new 1 vs fs (net_deps n) (finite_weights (weights n))).
    assert (Hr0 : ready s0). { apply (problem_ready vs fs (net_deps n)); auto. apply Hcr. apply repeat_length. }
    destruct (get_decisions_spec sc s0 (r_wf _ Hr0) (r_closed _ Hr0)) as (t0 & r & E0 & Hpr & _).
    unfold ve_solve_policies. rewrite E0. cbn [gbind].
    assert (Er : r = []).
    { assert (Edv : decisions_of (vs_vars (ve_vs s0)) = []).
      { change (vs_vars (ve_vs s0)) with (vs_vars vs). rewrite (cr_vars _ _ _ _ Hcr). destruct (decisions_of (net_vars n)) as [|v l] eqn:Ev; auto. assert (Hv : In v (decisions_of (net_vars n))) by (rewrite Ev; simpl; auto).
        unfold decisions_of in Hv. apply filter_In in Hv. destruct Hv as [Hv Ht]. unfold net_vars in Hv. apply in_map_iff in Hv. destruct Hv as (e & <- & He). apply in_entries in He. destruct He as (k & w & Hk & _ & ->).
        exfalso. assert (Hd : In (nv_name w) (decisions n)); [|rewrite Hdec in Hd; destruct Hd]. unfold decisions. apply in_map. apply filter_In. split; [eapply nth_error_In; eauto|].
        cbn in Ht. unfold ve_type in Ht. unfold is_kind. destruct (nodeType_eqb (nv_type w) Decision && has_key (n_policies n) (nv_name w)); [discriminate|]. destruct (nv_type w); auto; discriminate. }
      rewrite Edv in Hpr. apply Permutation_nil in Hpr. auto. }
    subst r. cbn [n_policies with_solver with_policies store_policies]. rewrite Hpo.
    assert (Hp : Permutation (@nil (string * factor xnum)) (shuffle sc (ve_tick (with_vs s0 (ve_vs s0))) [])) by apply shuffle_perm.
    match goal with |- context [shuffle sc ?t []] => assert (Hp' : Permutation (@nil (string * factor xnum)) (shuffle sc t [])) by apply shuffle_perm; apply Permutation_nil in Hp'; rewrite Hp' end.
    cbn [foldM]. eexists. eexists. eexists. split; reflexivity. }
  destruct Er as (n' & a & b & E & En'). exists n'. split; auto. destruct (policies_names sc n true n' [] (wn_names n Hwf) (wn_count n Hwf) E) as [Hk _].
  subst n'. constructor; auto.
  - apply wf_with_solver. auto.
  - intros v Hv Ht. exfalso. assert (Hd : In (nv_name v) (decisions n)); [|rewrite Hdec in Hd; destruct Hd]. unfold decisions. apply in_map. apply filter_In. split; [exact Hv|]. unfold is_kind. rewrite Ht. auto.
  - intros d Hd. rewrite Hdec in Hd. destruct Hd.
  - cbn [map]. constructor.
Qed.
Lemma start_ok sc n : solvable n -> exists n' tables, net_solve_policies sc n true = (n', Ok tables) /\ started n n' tables /\ (decisions n <> [] -> policies_solved n n' tables).
Proof.
  intros [[Hdn Hnf]|(Hdec & Hwf & Hco & Hnn & Hpl & Hpo)].
  - destruct (start_decisions sc n Hdn Hnf) as (n' & tables & E & H1 & H2). eauto 10.
  - destruct (start_plain sc n Hdec Hwf Hco Hnn Hpl Hpo) as (n' & E & H1). exists n', []. split; auto. split; auto. congruence.
Qed.

(** ** The nodes at the start *)
Lemma new_node_runes v f f' t : new_node v f = Ok t -> exists u, new_node v f' = Ok u /\ t_runes u = t_runes t.
Proof.
  unfold new_node. destruct (node_color v); try discriminate. destruct (make_grid (node_bounds v) sym_empty); try discriminate. cbn [gbind]. destruct (make_grid (node_bounds v) a); try discriminate. cbn [gbind].
  destruct (draw_border _ _ _); try discriminate. cbn [gbind]. destruct (draw_title _ _ _); try discriminate. cbn [gbind]. destruct (draw_labels _ _ _); try discriminate. cbn [gbind]. intros H. injection H as <-. eexists. split; reflexivity.
Qed.
Lemma factor_found n d : In d (decisions n) -> wf_network n -> forall g, In g (observed_by n d) -> exists w, var_named (n_vars n) g = Some w.
Proof.
  intros Hd Hwf g Hg. unfold observed_by in Hg. destruct (factor_for (n_factors n) d) as [f|] eqn:Ef; [|destruct Hg]. unfold factor_for in Ef. apply find_some in Ef. destruct Ef as [Hin En]. apply String.eqb_eq in En.
  assert (Ht : is_total n (nf_for f) = false).
  { destruct (is_total n (nf_for f)) eqn:E; auto. apply (total_kind n Hwf) in E. unfold decisions in Hd. apply in_map_iff in Hd. destruct Hd as (v & Ev & Hv). apply filter_In in Hv. destruct Hv as [Hv Hk].
    assert (Hn : var_named (n_vars n) (nf_for f) = Some v) by (apply (var_named_in n Hwf); split; auto; congruence). unfold kind in E. rewrite Hn in E. cbn [option_map] in E. unfold is_kind in Hk. destruct (nv_type v); cbn in Hk; congruence. }
  apply (wt_given _ _ (wn_tables n Hwf f Hin Ht)). auto.
Qed.
Section Start.
Variables (n n' : network xnum) (tables : list (string * nfactor xnum)).
Hypothesis Hsw : showable n.
Hypothesis Hst : started n n' tables.
Let Hwf' : wf_network n' := sr_wf _ _ _ Hst.
Lemma total_start x : is_total n' x = is_total n x.
Proof. unfold is_total. rewrite (sr_vars _ _ _ Hst), (sr_tui _ _ _ Hst). auto. Qed.
Lemma total_factor_start : total_factor n' = total_factor n.
Proof. unfold total_factor. rewrite (sr_vars _ _ _ Hst), (sr_tui _ _ _ Hst), (sr_factors _ _ _ Hst). auto. Qed.
Lemma decisions_start : decisions n' = decisions n.
Proof. unfold decisions. rewrite (sr_vars _ _ _ Hst). auto. Qed.
Lemma observed_start d : observed_by n' d = observed_by n d.
Proof. unfold observed_by. rewrite (sr_factors _ _ _ Hst). auto. Qed.
Lemma total_node f : total_factor n = Some f -> exists v, In v (n_vars n) /\ is_total n (nv_name v) = true.
Proof.
  unfold total_factor. destruct (n_tui n <? 0) eqn:E; [discriminate|]. destruct (nth_error (n_vars n) (Z.to_nat (n_tui n))) as [v|] eqn:Ev; [|discriminate]. intros _. exists v. split; [eapply nth_error_In; eauto|].
  unfold is_total. rewrite Ev, String.eqb_refl. lia.
Qed.
Lemma start_displayable : displayable n'.
Proof.
  constructor; try apply Hst.
  - intros f g Hf Hg. rewrite total_factor_start in Hf. rewrite total_start, (sr_vars _ _ _ Hst). eapply sw_parents; eauto.
  - intros f Hf. rewrite total_factor_start in Hf. destruct (total_node f Hf) as (v & Hv & Ht). eapply (proj1 (sw_total n Hsw v f Hv Ht Hf)).
Qed.
Lemma start_roomy : roomy n'.
Proof. intros v f Hv Ht Hf. rewrite total_factor_start in Hf. rewrite total_start in Ht. rewrite (sr_vars _ _ _ Hst) in Hv. apply (sw_total n Hsw v f Hv Ht Hf). Qed.
Lemma start_linked : forall v, In v (n_vars n') -> exists k f, nv_factor v = Some k /\ nth_error (n_factors n') k = Some f.
Proof. intros v Hv. rewrite (sr_vars _ _ _ Hst) in Hv. rewrite (sr_factors _ _ _ Hst). destruct (sw_tables n Hsw v Hv) as (k & f & E1 & E2 & _). eauto. Qed.
Definition own_factor (v : nvar) : option (nfactor xnum) := match nv_factor v with Some k => nth_error (n_factors n) k | None => None end.
Lemma make_nodes_ok : exists nodes, make_nodes n = Ok nodes /\ Forall2 (fun v t => new_node v (own_factor v) = Ok t) (n_vars n) nodes.
Proof.
  unfold make_nodes. pose proof (sw_colors n Hsw) as Hc. revert Hc. generalize (n_vars n) as l. induction l as [|v l IH]; intros Hc; cbn [mapM]; [exists []; split; auto|].
  destruct (new_node_ok v (own_factor v) (Hc v (or_introl eq_refl))) as (t & E & _). unfold own_factor in E. rewrite E. cbn [gbind]. destruct IH as (ts & -> & F); [intros; apply Hc; right; auto|]. cbn [gbind]. exists (t :: ts). split; auto.
Qed.
Lemma start_node v t : In v (n_vars n) -> new_node v (own_factor v) = Ok t -> node_of n' v (policy_shown tables t).
Proof.
  intros Hv E. assert (Hcol : known_color v) by (apply (sw_colors n Hsw); auto). destruct (new_node_ok v (own_factor v) Hcol) as (t0 & E0 & Hok & Ev & Ef & Eb). assert (t0 = t) by congruence. subst t0.
  destruct (sw_tables n Hsw v Hv) as (k & f & Ek & Hf & Hfor). destruct (sw_positions n Hsw v Hv) as [Hx Hy].
  assert (Eo : own_factor v = Some f) by (unfold own_factor; rewrite Ek; auto).
  assert (Hv' : In v (n_vars n')) by (rewrite (sr_vars _ _ _ Hst); auto).
  assert (Hvn : var_named (n_vars n') (nv_name v) = Some v) by (apply (var_named_in n' Hwf'); auto).
  assert (Huniq : forall w, In w (n_vars n) -> nv_name w = nv_name v -> w = v).
  { intros w Hw Ew. rewrite <- (sr_vars _ _ _ Hst) in Hw. assert (Q : var_named (n_vars n') (nv_name v) = Some w) by (apply (var_named_in n' Hwf'); auto). congruence. }
  assert (Hsame : t_var (policy_shown tables t) = v /\ t_bounds (policy_shown tables t) = node_bounds v /\ node_ok (policy_shown tables t)).
  { unfold policy_shown. destruct (sget_map tables (t_name t)); cbn; auto. split; auto. split; auto. destruct Hok; constructor; auto. }
  destruct Hsame as (S1 & S2 & S3).
  assert (En : t_name t = nv_name v) by (unfold t_name; congruence).
  assert (Htot : is_total n' (nv_name v) = true -> nv_type v = Utility).
  { intros Ht. apply (total_kind n' Hwf') in Ht. unfold kind in Ht. rewrite Hvn in Ht. cbn [option_map] in Ht. congruence. }
  assert (Hdec : In (nv_name v) (decisions n) <-> nv_type v = Decision).
  { unfold decisions. rewrite in_map_iff. split.
    - intros (w & Ew & Hw). apply filter_In in Hw. destruct Hw as [Hw Hk]. assert (w = v) by (apply Huniq; auto). subst w. unfold is_kind in Hk. destruct (nv_type v); cbn in Hk; congruence.
    - intros Ht. exists v. split; auto. apply filter_In. split; auto. unfold is_kind. rewrite Ht. auto. }
  constructor; rewrite ?S1, ?S2; auto.
  - repeat split.
  - unfold policy_shown. rewrite En. destruct (nv_type v) eqn:Ety.
    + rewrite (sr_none _ _ _ Hst) by (rewrite Hdec; congruence). exists f. split; [congruence|]. split; auto. assert (Hin : In f (n_factors n')) by (rewrite (sr_factors _ _ _ Hst); eapply nth_error_In; eauto).
      assert (Hnt : is_total n' (nf_for f) = false). { rewrite Hfor. destruct (is_total n' (nv_name v)) eqn:Et; auto. specialize (Htot eq_refl). congruence. }
      pose proof (wn_tables n' Hwf' f Hin Hnt) as Hw. split; [intros g Hg; apply (wt_given _ _ Hw); auto|]. intros _. split; [apply (wt_distinct _ _ Hw)|]. apply (wt_table _ _ Hw). unfold kind. rewrite Hfor, Hvn. cbn [option_map]. rewrite Ety. discriminate.
    + destruct (sr_tables _ _ _ Hst (nv_name v) (proj2 Hdec eq_refl)) as (p & Ep & Hp). rewrite Ep. exists p. split; [reflexivity|]. split; [apply (rp_for _ _ _ Hp)|]. split.
      * intros g Hg. apply (factor_found n' (nv_name v)); auto; [rewrite decisions_start; apply Hdec; auto|]. rewrite observed_start. apply (rp_given _ _ _ Hp). auto.
      * intros _. rewrite (rp_for _ _ _ Hp). split; [apply (rp_distinct _ _ _ Hp)|]. rewrite (sr_vars _ _ _ Hst). apply (rp_table _ _ _ Hp).
    + rewrite (sr_none _ _ _ Hst) by (rewrite Hdec; congruence). exists f. split; [congruence|]. split; auto. assert (Hin : In f (n_factors n')) by (rewrite (sr_factors _ _ _ Hst); eapply nth_error_In; eauto).
      destruct (is_total n' (nv_name v)) eqn:Et.
      * split; [|discriminate]. intros g Hg. assert (Htf : total_factor n = Some f).
        { unfold is_total in Et. rewrite (sr_vars _ _ _ Hst), (sr_tui _ _ _ Hst) in Et. unfold total_factor. destruct (nth_error (n_vars n) (Z.to_nat (n_tui n))) as [w|] eqn:Ew; [|discriminate]. rewrite andb_true_iff in Et. destruct Et as [Et1 Et2]. apply String.eqb_eq in Et2.
          assert (w = v) by (apply Huniq; auto; eapply nth_error_In; eauto). subst w. replace (n_tui n <? 0) with false by lia. rewrite Ek. auto. }
        destruct (sw_parents n Hsw f g Htf Hg) as [_ Hk]. rewrite (sr_vars _ _ _ Hst). unfold kind in Hk. destruct (var_named (n_vars n) g); [eauto|discriminate].
      * rewrite <- Hfor in Et. pose proof (wn_tables n' Hwf' f Hin Et) as Hw. split; [intros g Hg; apply (wt_given _ _ Hw); auto|]. intros _. split; [apply (wt_distinct _ _ Hw)|]. apply (wt_table _ _ Hw). unfold kind. rewrite Hfor, Hvn. cbn [option_map]. rewrite Ety. discriminate.
  - intros Ht. unfold policy_shown. rewrite En, (sr_none _ _ _ Hst) by (rewrite Hdec, (Htot Ht); discriminate). rewrite Ef, total_factor_start. rewrite total_start in Ht. unfold is_total in Ht. unfold total_factor, own_factor.
    destruct (nth_error (n_vars n) (Z.to_nat (n_tui n))) as [w|] eqn:Ew; [|discriminate]. rewrite andb_true_iff in Ht. destruct Ht as [Et1 Et2]. apply String.eqb_eq in Et2.
    assert (w = v) by (apply Huniq; auto; eapply nth_error_In; eauto). subst w. replace (n_tui n <? 0) with false by lia. auto.
Qed.
End Start.

(** ** Run *)
Theorem app_run_ok scs scp n ev : solvable n -> showable n -> valid_observations n ev ->
  exists n' tables a, net_solve_policies scp n true = (n', Ok tables) /\ started n n' tables /\ app_run scs scp n ev = Ok a /\
    app_ok n' a /\ valid_selection a /\ a_evidence a = ev /\ a_ignore a = false /\ a_running a = true /\ map t_var (a_nodes a) = n_vars n /\
    Forall2 (fun v t => b_x (t_bounds t) = fst (nv_pos v) /\ b_y (t_bounds t) = snd (nv_pos v)) (n_vars n) (a_nodes a) /\
    Forall2 (fun v t => t_factor t = match sget_map tables (nv_name v) with Some p => Some p | None => own_factor n v end) (n_vars n) (a_nodes a).
Proof.
  intros Hso Hsw Hev. destruct (start_ok scp n Hso) as (n' & tables & E & Hst & _). exists n', tables.
  pose proof (start_displayable n n' tables Hsw Hst) as Hd. pose proof (start_roomy n n' tables Hsw Hst) as Hr. pose proof (start_linked n n' tables Hsw Hst) as Hl.
  destruct (make_nodes_ok n Hsw) as (nodes0 & E0 & F0). pose proof (Forall2_len _ _ _ F0) as L0.
  assert (Hwf' := sr_wf _ _ _ Hst). assert (EV := sr_vars _ _ _ Hst).
  assert (Hvar : forall v t, In v (n_vars n) -> new_node v (own_factor n v) = Ok t -> t_var t = v /\ t_factor t = own_factor n v /\ t_bounds t = node_bounds v).
  { intros v t Hv Ht. destruct (new_node_ok v (own_factor n v) (sw_colors n Hsw v Hv)) as (t0 & Et & _ & A & B & C). assert (t0 = t) by congruence. subst. auto. }
  assert (Enames : map t_name nodes0 = map nv_name (n_vars n)).
  { apply nth_error_ext. intros i. rewrite !nth_error_map. destruct (nth_error (n_vars n) i) as [v|] eqn:Ev; destruct (nth_error nodes0 i) as [t|] eqn:Et; cbn [option_map]; auto.
    - f_equal. destruct (Hvar v t (nth_error_In _ _ Ev) (Forall2_nth _ _ _ F0 _ _ _ Ev Et)) as (A & _). unfold t_name. congruence.
    - apply nth_error_None in Et. assert (i < List.length (n_vars n))%nat by (apply nth_error_Some; congruence). lia.
    - apply nth_error_None in Ev. assert (i < List.length nodes0)%nat by (apply nth_error_Some; congruence). lia. }
  assert (Esp : show_policies (scs 3%nat) nodes0 tables = Ok (map (policy_shown tables) nodes0)).
  { apply show_policies_ok; [rewrite Enames, <- EV; apply (wn_names n' Hwf')|apply (sr_keys _ _ _ Hst)|]. intros d Hdd. rewrite Enames.
    destruct (in_dec string_dec d (decisions n)) as [Hin|Hout].
    - unfold decisions in Hin. apply in_map_iff in Hin. destruct Hin as (v & <- & Hv). apply filter_In in Hv. apply in_map. tauto.
    - pose proof (sr_none _ _ _ Hst d Hout) as Q. apply (mget_None String.eqb String.eqb_eq) in Q. tauto. }
  set (nodes := map (policy_shown tables) nodes0) in *.
  assert (Fn : Forall2 (node_of n') (n_vars n') nodes).
  { rewrite EV. unfold nodes. apply nth_Forall2; [rewrite map_length; auto|]. intros i v t Hv Ht. rewrite nth_error_map in Ht. destruct (nth_error nodes0 i) as [t0|] eqn:Et; [|discriminate]. injection Ht as <-.
    apply (start_node n n' tables Hsw Hst v t0); [exact (nth_error_In _ _ Hv)|exact (Forall2_nth _ _ _ F0 _ _ _ Hv Et)]. }
  assert (Fb : Forall2 (fun v t => t_var t = v /\ t_bounds t = node_bounds v /\ t_factor t = match sget_map tables (nv_name v) with Some p => Some p | None => own_factor n v end) (n_vars n) nodes).
  { unfold nodes. apply nth_Forall2; [rewrite map_length; auto|]. intros i v t Hv Ht. rewrite nth_error_map in Ht. destruct (nth_error nodes0 i) as [t0|] eqn:Et; [|discriminate]. injection Ht as <-.
    destruct (Hvar v t0 (nth_error_In _ _ Hv) (Forall2_nth _ _ _ F0 _ _ _ Hv Et)) as (A & B & C). unfold policy_shown, t_name. rewrite A. destruct (sget_map tables (nv_name v)); cbn; auto. }
  assert (Hev' : valid_observations n' ev). { destruct Hev as [A B]. split; auto. rewrite EV. auto. }
  set (a0 := mkApp n' nodes ev [] 0 0 false [] [] [] [] PGraph None true).
  set (m0 := map (fun v => (nv_name v, shown_numbers n' false ev v)) (n_vars n')).
  assert (Hm0 : displayed n' false ev m0).
  { intros x. unfold m0, var_named. generalize (n_vars n'). induction l as [|v l IH]; auto. cbn [map mget find]. rewrite (String.eqb_sym x). destruct (String.eqb (nv_name v) x); [reflexivity|exact IH]. }
  assert (Hlen : 0 < zlen nodes). { unfold zlen, nodes. rewrite map_length, <- L0. pose proof (sw_some n Hsw). destruct (n_vars n); [congruence|simpl; lia]. }
  assert (Hc0 : core n' (set_solution a0 n' m0)).
  { constructor; cbn [a0 a_net a_nodes a_evidence a_marginals a_selected a_state a_ignore set_solution]; auto; try lia.
    - apply relaid_refl.
    - apply (knows_used n n' (sr_knows _ _ _ Hst)).
    - rewrite EV. apply nth_Forall2; [apply (Forall2_len _ _ _ Fb)|]. intros i v t Hv Ht. destruct (Forall2_nth _ _ _ Fb _ _ _ Hv Ht) as (_ & -> & _). unfold node_bounds. cbn [b_x b_y]. destruct (nv_pos v); auto.
    - intros t Ht. intros _. left. apply In_nth_error in Ht. destruct Ht as [i Hi]. unfold nodes in Hi. rewrite nth_error_map in Hi. destruct (nth_error nodes0 i) as [t0|] eqn:Et; [|discriminate]. injection Hi as <-.
      assert (i < List.length nodes0)%nat by (apply nth_error_Some; congruence). destruct (nth_error (n_vars n) i) as [v|] eqn:Ev; [|apply nth_error_None in Ev; lia].
      pose proof (Forall2_nth _ _ _ F0 _ _ _ Ev Et) as En. destruct (Hvar v t0 (nth_error_In _ _ Ev) En) as (A & _). destruct (new_node_runes v (own_factor n v) (t_factor (policy_shown tables t0)) t0 En) as (u & Eu & Er).
      exists u. unfold policy_shown in *. destruct (sget_map tables (t_name t0)); cbn [with_factor t_var t_factor t_runes] in *; rewrite A; auto. }
  destruct (solve_core n' Hd Hl scs (set_solution a0 n' m0) ev false Hc0 Hev') as (n1 & m1 & E1 & Hc1).
  assert (E1' : update_marginals scs a0 = (set_solution a0 n1 m1, Ok tt)).
  { unfold update_marginals in *. change (tui_solve scs (a_net a0) (a_evidence a0) (node_data a0) (a_ignore a0)) with (tui_solve scs n' ev (node_data a0) false).
    change (tui_solve scs (a_net (set_ignore (set_evidence (set_solution a0 n' m0) ev) false)) _ _ _) with (tui_solve scs n' ev (node_data a0) false) in E1.
    destruct (tui_solve scs n' ev (node_data a0) false) as [n2 [m2| |]]; try discriminate. injection E1 as -> ->. reflexivity. }
  change (set_solution (set_ignore (set_evidence (set_solution a0 n' m0) ev) false) n1 m1) with (set_solution a0 n1 m1) in Hc1. set (a1 := set_solution a0 n1 m1) in *.
  destruct (create_canvas_ok a1 (core_nodes_ok n' a1 Hc1)) as (W & H & c & d & E2 & HW & HH & S1 & S2 & Hno).
  assert (Hca : canvas_ok (set_canvas a1 c d)) by (exists W, H; auto 10).
  destruct (render_app n' Hd Hr false (set_canvas a1 c d) (core_canvas n' a1 c d Hc1) Hca) as (nodes' & c' & d' & l & E3 & Ho & HV & HF); [discriminate|].
  set (a2 := set_text (set_canvas (set_nodes (set_canvas a1 c d) nodes') c' d') l) in *.
  exists (if String.eqb (n_info n') "" then a2 else set_page a2 PInfo). split; auto. split; auto.
  assert (EV' : map t_var nodes' = n_vars n).
  { rewrite HV. cbn [a1 a0 a_nodes set_canvas set_solution]. apply nth_error_ext. intros i. rewrite nth_error_map. destruct (nth_error (n_vars n) i) as [v|] eqn:Ev; destruct (nth_error nodes i) as [t|] eqn:Et; cbn [option_map]; auto.
    - destruct (Forall2_nth _ _ _ Fb _ _ _ Ev Et) as (-> & _). auto.
    - apply nth_error_None in Et. rewrite <- (Forall2_len _ _ _ Fb) in Et. apply nth_error_None in Et. congruence.
    - apply nth_error_None in Ev. rewrite (Forall2_len _ _ _ Fb) in Ev. apply nth_error_None in Ev. congruence. }
  assert (Fb' : Forall2 (fun v t => t_bounds t = node_bounds v /\ t_factor t = match sget_map tables (nv_name v) with Some p => Some p | None => own_factor n v end) (n_vars n) nodes').
  { apply nth_Forall2; [rewrite <- EV', map_length; auto|]. intros i v t Hv Ht. pose proof (f_equal (fun l => nth_error l i) HF) as Ei. cbv beta in Ei. cbn [a1 a0 a_nodes set_canvas set_solution] in Ei. rewrite !nth_error_map, Ht in Ei.
    destruct (nth_error nodes i) as [u|] eqn:Eu; [|discriminate]. destruct (Forall2_nth _ _ _ Fb _ _ _ Hv Eu) as (_ & <- & <-). unfold frame in Ei. cbn [option_map] in Ei. split; congruence. }
  split.
  { unfold app_run. rewrite E0. cbn [gbind]. rewrite E. cbn [gbind]. rewrite Esp. cbn [gbind]. change (mkApp n' nodes ev [] 0 0 false [] [] [] [] PGraph None true) with a0. rewrite E1'. cbn [gbind]. rewrite E2. cbn [gbind]. rewrite E3. reflexivity. }
  assert (Hval : valid_selection a2).
  { pose proof (ao_core _ _ Ho) as Hc2. destruct (selected_get n' Hl a2 Hc2) as (t & v & _ & Es & _ & Hv & Hn). exists t. split; auto. destruct (node_outcomes n' Hd v t Hv Hn) as (_ & _ & _ & Hp). exact (conj (Z.le_refl 0) Hp). }
  assert (Ho' : app_ok n' (if String.eqb (n_info n') "" then a2 else set_page a2 PInfo)) by (destruct (String.eqb (n_info n') ""); auto; eapply ok_same; eauto).
  assert (Hval' : valid_selection (if String.eqb (n_info n') "" then a2 else set_page a2 PInfo)) by (destruct (String.eqb (n_info n') ""); auto).
  split; [exact Ho'|]. split; [exact Hval'|]. split; [destruct (String.eqb (n_info n') ""); reflexivity|]. split; [destruct (String.eqb (n_info n') ""); reflexivity|]. split; [destruct (String.eqb (n_info n') ""); reflexivity|].
  assert (En : a_nodes (if String.eqb (n_info n') "" then a2 else set_page a2 PInfo) = nodes') by (destruct (String.eqb (n_info n') ""); reflexivity). rewrite En. split; auto.
  split; apply nth_Forall2; try apply (Forall2_len _ _ _ Fb'); intros i v t Hv Ht; destruct (Forall2_nth _ _ _ Fb' _ _ _ Hv Ht) as (A & B); auto. rewrite A. auto.
Qed.

(** ** Sessions *)
Section Sessions.
Variable n : network xnum.
Hypothesis Hd : displayable n.
Hypothesis Hroom : roomy n.
Hypothesis Hlinked : forall v, In v (n_vars n) -> exists k f, nv_factor v = Some k /\ nth_error (n_factors n) k = Some f.
Variable other_digit : Z -> bool.
Theorem session_any : forall events a, app_ok n a ->
  match session other_digit a events with
  | Ok a' => app_ok n a'
  | Err _ => False
  | Panic _ => exists before e scs after a1, events = before ++ (e, scs) :: after /\ session other_digit a before = Ok a1 /\ crash other_digit a1 e
  end.
Proof.
  induction events as [|[e scs] events IH]; intros a Ho; unfold session in *; cbn [foldM]; auto.
  destruct (handle_step n Hd Hroom Hlinked other_digit scs e a Ho) as [(a' & E & Hs & _)|[Hc [p E]]]; rewrite E; cbn [gbind].
  - specialize (IH a' (sd_ok _ _ _ _ Hs)). destruct (foldM _ a' events) as [a2| |p]; auto. destruct IH as (before & e1 & scs1 & after & a1 & -> & E1 & Hc). exists ((e, scs) :: before), e1, scs1, after, a1. split; auto. split; auto. cbn [foldM]. rewrite E. exact E1.
  - exists [], e, scs, events, a. auto.
Qed.
Theorem session_keys : forall events a, app_ok n a -> valid_selection a -> Forall (fun e => plain_key other_digit (fst e)) events ->
  exists a', session other_digit a events = Ok a' /\ app_ok n a' /\ valid_selection a'.
Proof.
  induction events as [|[e scs] events IH]; intros a Ho Hv Hk; unfold session in *; cbn [foldM]; [eauto|]. inversion Hk as [|? ? Hk1 Hk2]; subst. cbn [fst] in Hk1.
  destruct (handle_step n Hd Hroom Hlinked other_digit scs e a Ho) as [(a' & E & Hs & Hva)|[Hc [p E]]].
  - rewrite E. cbn [gbind]. apply IH; auto. apply (sd_ok _ _ _ _ Hs).
  - exfalso. destruct Hc as [_ [[-> (t & Ht & Hu & Hz)]|(r & -> & Hr & Hod)]].
    + destruct Hv as (t' & Ht' & Hs). assert (t' = t) by congruence. subst. unfold t_outcomes in Hs. lia.
    + cbn in Hk1. rewrite Hk1 in Hod by auto. discriminate.
Qed.
End Sessions.

(** ** The command line *)
Theorem run_inference_ok scs scp n texts ev : solvable n -> showable n -> parse_evidence texts = Ok ev -> valid_observations n ev ->
  exists n' tables m, net_solve_policies scp n true = (n', Ok tables) /\ started n n' tables /\ run_inference scs scp n texts = Ok (ev, m) /\ displayed n' false ev m.
Proof.
  intros Hso Hsw Hp Hev. destruct (start_ok scp n Hso) as (n' & tables & E & Hst & _). exists n', tables.
  pose proof (start_displayable n n' tables Hsw Hst) as Hd. assert (EV := sr_vars _ _ _ Hst).
  destruct (make_nodes_ok n Hsw) as (nodes0 & E0 & F0).
  assert (Hvar : forall v t, In v (n_vars n) -> new_node v (own_factor n v) = Ok t -> t_var t = v /\ t_factor t = own_factor n v).
  { intros v t Hv Ht. destruct (new_node_ok v (own_factor n v) (sw_colors n Hsw v Hv)) as (t0 & Et & _ & A & B & C). assert (t0 = t) by congruence. subst. auto. }
  assert (Hev' : valid_observations n' ev). { destruct Hev as [A B]. split; auto. rewrite EV. auto. }
  set (nodes := map (fun t => (t_var t, t_factor t)) nodes0).
  assert (Hn : nodes_of n' nodes).
  { split.
    - rewrite EV. unfold nodes. apply nth_Forall2; [rewrite map_length; apply (Forall2_len _ _ _ F0)|]. intros i v p Hv Hpp. rewrite nth_error_map in Hpp. destruct (nth_error nodes0 i) as [t|] eqn:Et; [|discriminate]. injection Hpp as <-. cbn [fst].
      destruct (Hvar v t (nth_error_In _ _ Hv) (Forall2_nth _ _ _ F0 _ _ _ Hv Et)) as [-> _]. auto.
    - intros p H0 Hpp. rewrite (total_factor_start n n' tables Hst). rewrite (sr_tui _ _ _ Hst) in *. unfold nodes in Hpp. rewrite nth_error_map in Hpp. destruct (nth_error nodes0 _) as [t|] eqn:Et; [|discriminate]. injection Hpp as <-. cbn [snd].
      unfold total_factor. replace (n_tui n <? 0) with false by lia. destruct (nth_error (n_vars n) (Z.to_nat (n_tui n))) as [v|] eqn:Ev.
      + destruct (Hvar v t (nth_error_In _ _ Ev) (Forall2_nth _ _ _ F0 _ _ _ Ev Et)) as [_ ->]. auto.
      + apply nth_error_None in Ev. rewrite (Forall2_len _ _ _ F0) in Ev. apply nth_error_None in Ev. congruence. }
  destruct (solve_displays n' Hd scs false ev Hev' (knows_used n n' (sr_knows _ _ _ Hst)) nodes Hn) as (n2 & m & Em & Hm & _). exists m. split; auto. split; auto. split; auto.
  unfold run_inference. rewrite Hp. cbn [gbind]. rewrite E0. cbn [gbind]. rewrite E. cbn [gbind]. fold nodes. rewrite Em. reflexivity.
Qed.
