(** What the commands print depends on the same things as the answers of the network. *)
From Coq Require Import ZArith List Bool String Lia.
From Verif Require Import Num GoBase VarModel GoFacts VEModel NetModel SpecNet NetNew TrainThms TextModel LogicModel DocModel SpecDoc CliModel TuiModel SpecTui TuiDraw SpecApp TuiApp TuiStart ShellModel SpecReload NetBare.
Import ListNotations.
Open Scope string_scope.
Open Scope list_scope.
Open Scope Z_scope.

Definition bare_node {F} (p : nvar * F) : nvar * F := (bare_var (fst p), snd p).
Section Solve.
Context {A : Type} {N : NumOps A}.
Variable scs : nat -> sched.
Lemma bare_solve_evidence (n : network A) ev : solve_evidence scs (bare n) ev = solve_evidence scs n ev.
Proof. unfold solve_evidence. apply foldM_ext. intros res [x v]. rewrite bare_to_evidence. auto. Qed.
Lemma bare_each ev ign : forall qs k (n : network A) res, solve_each scs k (bare n) ev qs ign res = (bare (fst (solve_each scs k n ev qs ign res)), snd (solve_each scs k n ev qs ign res)).
Proof.
  induction qs as [|q qs IH]; intros k n res; cbn [solve_each]; auto. rewrite bare_query. destruct (net_solve_query (scs k) n ev [q] ign) as [n1 [[m f]| |]]; cbn [fst snd]; auto.
  destruct (sget_map m q); auto.
Qed.
Lemma bare_queries (n : network A) ev qs ign res : solve_queries scs (bare n) ev qs ign res = (bare (fst (solve_queries scs n ev qs ign res)), snd (solve_queries scs n ev qs ign res)).
Proof.
  unfold solve_queries. rewrite bare_query. destruct (net_solve_query (scs 1%nat) n ev [] ign) as [n1 [[m f]| |]]; cbn [fst snd]; auto.
  rewrite bare_each. destruct (solve_each scs 4 n1 ev qs ign res) as [n2 r]. auto.
Qed.
Lemma bare_utilities ev ign p t : forall us k (n : network A) res, solve_utilities scs k (bare n) ev us ign p t res = (bare (fst (solve_utilities scs k n ev us ign p t res)), snd (solve_utilities scs k n ev us ign p t res)).
Proof.
  induction us as [|u us IH]; intros k n res; cbn [solve_utilities]; auto. unfold net_solve_utility. rewrite bare_solve. destruct (net_solve (scs k) n ev [] true u ign) as [n1 [f| |]]; cbn [fst snd]; auto.
Qed.
Lemma bare_utility_nodes (n : network A) nodes ev p ign res :
  solve_utility_nodes scs (bare n) (map bare_node nodes) ev p ign res = (bare (fst (solve_utility_nodes scs n nodes ev p ign res)), snd (solve_utility_nodes scs n nodes ev p ign res)).
Proof.
  unfold solve_utility_nodes. unfold net_solve_utility at 1. rewrite bare_solve. fold (net_solve_utility (scs 2%nat) n ev [] "" ign). destruct (net_solve_utility (scs 2%nat) n ev [] "" ign) as [n1 [f| |]]; cbn [fst snd]; auto.
  assert (Eu : utility_names (bare n) (map bare_node nodes) = utility_names n nodes).
  { unfold utility_names. rewrite zlen_map, combine_map_r. rewrite (filter_map_comm _ (fun p0 => negb (fst p0 =? n_tui n) && is_utility (fst (snd p0)))) by (intros [i [v g]]; auto). rewrite map_map. apply map_ext. intros [i [v g]]. auto. }
  assert (Et : TuiModel.total_node (bare n) (map bare_node nodes) = option_map bare_node (TuiModel.total_node n nodes)).
  { unfold TuiModel.total_node. rewrite zlen_map, combine_map_r. induction (combine (zrange 0 (zlen nodes)) nodes) as [|[i [v g]] l IH]; auto. cbn [map find fst]. cbn [bare n_tui]. destruct (i =? n_tui n); auto. }
  rewrite Eu, Et, map_length, bare_utilities. destruct (solve_utilities scs _ n1 ev (utility_names n nodes) ign p _ res) as [n2 r]. cbn [fst snd]. f_equal. apply gbind_ext. intros res'.
  destruct (TuiModel.total_node n nodes) as [[v g]|]; auto.
Qed.
Theorem bare_tui_solve (n : network A) ev nodes ign : tui_solve scs (bare n) ev (map bare_node nodes) ign = (bare (fst (tui_solve scs n ev nodes ign)), snd (tui_solve scs n ev nodes ign)).
Proof.
  unfold tui_solve. rewrite bare_solve_evidence.
  replace (solve_names_of ev (map bare_node nodes)) with (solve_names_of ev nodes). 2:{ unfold solve_names_of. rewrite (filter_map_comm _ (fun n => negb (is_utility (fst n)) && negb (has_key ev (nv_name (fst n))))) by (intros [v g]; auto). rewrite map_map. apply map_ext. intros [v g]. auto. }
  destruct (solve_evidence scs n ev) as [res| |]; auto. rewrite bare_queries. destruct (solve_queries scs n ev (solve_names_of ev nodes) ign res) as [n1 [[p r]| |]]; cbn [fst snd]; auto. apply bare_utility_nodes.
Qed.
End Solve.

Definition node_pairs (nodes : list tnode) : list (nvar * option (nfactor xnum)) := map (fun t => (t_var t, t_factor t)) nodes.
Lemma made_pairs n nodes : showable n -> make_nodes n = Ok nodes -> map bare_node (node_pairs nodes) = map (fun v => (bare_var v, match nv_factor v with Some k => nth_error (n_factors n) k | None => None end)) (n_vars n).
Proof.
  intros Hsw E. destruct (make_nodes_ok n Hsw) as (nodes' & E' & F). assert (nodes' = nodes) by congruence. subst nodes'. unfold node_pairs. rewrite map_map. clear E E'.
  pose proof (sw_colors n Hsw) as Hc. revert Hc F. generalize (n_vars n) as l. intros l Hc F. induction F as [|v t l ts H _ IH]; auto. cbn [map]. rewrite IH by (intros; apply Hc; right; auto). f_equal.
  destruct (new_node_ok v (own_factor n v) (Hc v (or_introl eq_refl))) as (t0 & E0 & _ & Ev & Ef & _). assert (t0 = t) by congruence. subst t0. unfold bare_node. cbn [fst snd]. rewrite Ev, Ef. auto.
Qed.

Section Same.
Variables (n n' : network xnum).
Hypothesis Hb : bare n' = bare n.
Lemma same_total_factor : total_factor n' = total_factor n.
Proof.
  pose proof (f_equal n_tui Hb) as E1. pose proof (f_equal n_vars Hb) as E2. pose proof (f_equal n_factors Hb) as E3. cbn [bare n_tui n_vars n_factors] in *.
  unfold total_factor. rewrite E1, E3. destruct (n_tui n <? 0); auto. apply (f_equal (fun l => nth_error l (Z.to_nat (n_tui n)))) in E2. rewrite !nth_error_map in E2.
  destruct (nth_error (n_vars n') _) as [v'|], (nth_error (n_vars n) _) as [v|]; cbn in E2; try congruence. injection E2 as _ _ _ ->. auto.
Qed.
Lemma same_is_total x : is_total n' x = is_total n x.
Proof.
  pose proof (f_equal n_tui Hb) as E1. pose proof (f_equal n_vars Hb) as E2. cbn [bare n_tui n_vars] in *. unfold is_total. rewrite E1. apply (f_equal (fun l => nth_error l (Z.to_nat (n_tui n)))) in E2. rewrite !nth_error_map in E2.
  destruct (nth_error (n_vars n') _) as [v'|], (nth_error (n_vars n) _) as [v|]; cbn in E2; try congruence. injection E2 as -> _ _ _. auto.
Qed.
Lemma same_in v' : In v' (n_vars n') -> exists v, In v (n_vars n) /\ bare_var v' = bare_var v.
Proof.
  pose proof (f_equal n_vars Hb) as E2. cbn [bare n_vars] in E2. intros H. apply (in_map bare_var) in H. rewrite E2 in H. apply in_map_iff in H. destruct H as (v & E & H). exists v. auto.
Qed.
Lemma same_kind x : kind (n_vars n') x = kind (n_vars n) x.
Proof.
  pose proof (f_equal n_vars Hb) as E2. cbn [bare n_vars] in E2. unfold kind, var_named. revert E2. generalize (n_vars n) as l, (n_vars n') as l'. induction l as [|v l IH]; intros [|v' l'] E; cbn in E; try discriminate E; auto.
  injection E as E1 E2 E3 E4 E5. cbn [find]. rewrite E1. destruct (String.eqb (nv_name v) x); [cbn; congruence|auto].
Qed.
Lemma same_showable : showable n -> (forall v, In v (n_vars n') -> nv_color v = "") -> Forall2 same_but_color (n_vars n) (n_vars n') -> showable n'.
Proof.
  intros Hsw Hc Hpos. constructor.
  - intros E. apply (sw_some n Hsw). pose proof (f_equal n_vars Hb) as E2. cbn [bare n_vars] in E2. rewrite E in E2. symmetry in E2. apply map_eq_nil in E2. auto.
  - intros v Hv. left. auto.
  - intros v' Hv'. destruct (Forall2_in_r _ _ _ _ Hpos Hv') as (v & Hv & (_ & _ & _ & ->)). apply (sw_positions n Hsw v Hv).
  - intros v' Hv'. destruct (same_in v' Hv') as (v & Hv & E). injection E as E1 _ _ E4. destruct (sw_tables n Hsw v Hv) as (k & f & K1 & K2 & K3). exists k, f. rewrite E4, E1. pose proof (f_equal n_factors Hb) as E3. cbn [bare n_factors] in E3. rewrite E3. auto.
  - intros v' f Hv' Ht Hf. destruct (same_in v' Hv') as (v & Hv & E). injection E as E1 _ E3 _. rewrite same_total_factor in Hf. rewrite same_is_total, E1 in Ht. rewrite E3. apply (sw_total n Hsw v f Hv Ht Hf).
  - intros f g Hf Hg. rewrite same_total_factor in Hf. rewrite same_is_total, same_kind. apply (sw_parents n Hsw f g Hf Hg).
Qed.
Lemma same_inference scs scp texts : by_position scp -> showable n -> showable n' -> run_inference scs scp n' texts = run_inference scs scp n texts.
Proof.
  intros Hp Hs Hs'. unfold run_inference. apply gbind_ext. intros ev. destruct (make_nodes_ok n Hs) as (nodes & E & _), (make_nodes_ok n' Hs') as (nodes' & E' & _). pose proof (made_pairs n nodes Hs E) as M. pose proof (made_pairs n' nodes' Hs' E') as M'. rewrite E, E'. cbn [gbind].
  assert (EM : map bare_node (node_pairs nodes') = map bare_node (node_pairs nodes)).
  { rewrite M, M'. pose proof (f_equal n_vars Hb) as E2. pose proof (f_equal n_factors Hb) as E3. cbn [bare n_vars n_factors] in *. rewrite E3. clear - E2. revert E2. generalize (n_vars n) as l, (n_vars n') as l'.
    induction l as [|v l IH]; intros [|v' l'] Q; cbn in Q; try discriminate Q; auto. injection Q as Q1 Q2 Q3 Q4 Q5. cbn [map]. rewrite (IH l' Q5), Q4. unfold bare_var. rewrite Q1, Q2, Q3, Q4. auto. }
  pose proof (bare_solve_policies scp n true Hp) as P. pose proof (bare_solve_policies scp n' true Hp) as P'. rewrite Hb, P in P'.
  destruct (net_solve_policies scp n true) as [m r], (net_solve_policies scp n' true) as [m' r']. cbn [fst snd] in *. injection P' as B3 B4 B5 B6 B7 B8 B9. subst r'. apply gbind_ext. intros _. f_equal.
  pose proof (bare_tui_solve scs m ev (node_pairs nodes) false) as T. pose proof (bare_tui_solve scs m' ev (node_pairs nodes') false) as T'. rewrite EM in T'.
  assert (EB : bare m' = bare m) by (unfold bare; congruence). rewrite EB, T in T'. injection T' as _ _ _ _ _ _ T'. symmetry. unfold node_pairs in *. assumption.
Qed.
End Same.
