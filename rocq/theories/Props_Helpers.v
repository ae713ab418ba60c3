(** C105: factors can be used after any later calls. *)
From Coq Require Import ZArith QArith Qcanon List Bool String Lia.
From Verif Require Import Num GoBase VarModel GoFacts VEModel NetModel SpecNet NetHistory Helpers Props_Net.
Import ListNotations.
Open Scope string_scope.
Open Scope list_scope.
Open Scope Z_scope.

(** The same numbers for the same variables. (After SolvePolicies, a decision counts as a chance
    variable: the node type inside the factor may differ.) *)
Definition same_factor {A} (f g : factor A) : Prop :=
  f_data f = f_data g /\ Forall2 (fun v w => v_id v = v_id w /\ v_outcomes v = v_outcomes w) (f_vars f) (f_vars g).
Definition same_result {A S} (r r' : gores (S * factor A)) : Prop :=
  match r, r' with
  | Ok (_, f), Ok (_, g) => same_factor f g
  | Err e, Err e' => e = e'
  | Panic p, Panic p' => p = p'
  | _, _ => False
  end.

Section Results.
Context {A : Type} {N : NumOps A}.
Notation net := (network A).
Lemma same_vars_refl (l : list variable) : Forall2 (fun v w => v_id v = v_id w /\ v_outcomes v = v_outcomes w) l l.
Proof. induction l; constructor; auto. Qed.
Lemma same_factor_refl (f : factor A) : same_factor f f. Proof. split; [reflexivity|apply same_vars_refl]. Qed.

(** Two operations on different [Variables] *)
Definition agree (op op' : vstate -> gores (vstate * factor A)) : Prop := forall s s', same_result (op s) (op' s').
Lemma on_variables_agree (n n' : net) op op' : n_ve n <> None -> n_ve n' <> None -> agree op op' -> same_result (on_variables n op) (on_variables n' op').
Proof.
  intros H H' Ho. unfold on_variables. destruct (n_ve n) as [s|]; [|congruence]. destruct (n_ve n') as [s'|]; [|congruence]. specialize (Ho (ve_vs s) (ve_vs s')).
  destruct (op (ve_vs s)) as [[v f]| |], (op' (ve_vs s')) as [[v' f']| |]; cbn in *; auto.
Qed.
Lemma create_agree vars (d : option (list A)) s s' : match create_factor s vars d, create_factor s' vars d with
  | Ok (_, f), Ok (_, g) => f_vars f = vars /\ f_vars g = vars /\ f_data f = f_data g | Err e, Err e' => e = e' | Panic p, Panic p' => p = p' | _, _ => False end.
Proof. unfold create_factor. destruct d as [d|]; [destruct (negb _)|destruct (smake _ _)]; cbn; auto. Qed.
Lemma normalize_agree (f : factor A) : agree (fun vs => normalize vs f) (fun vs => normalize vs f).
Proof.
  intros s s'. unfold normalize. pose proof (create_agree (f_vars f) (Some (f_data f)) s s') as H. destruct (create_factor s _ _) as [[a g]| |], (create_factor s' _ _) as [[b g']| |]; cbn [gbind]; try exact H; try destruct H.
  cbn. destruct H0 as (H0 & ->). rewrite H, H0. split; [reflexivity|apply same_vars_refl].
Qed.
Lemma invert_agree (f : factor A) s s' : match invert s f, invert s' f with
  | Ok (_, f), Ok (_, g) => f_vars f = f_vars g /\ f_data f = f_data g | Err e, Err e' => e = e' | Panic p, Panic p' => p = p' | _, _ => False end.
Proof.
  unfold invert. pose proof (create_agree (f_vars f) (Some (f_data f)) s s') as H. destruct (create_factor s _ _) as [[a g]| |], (create_factor s' _ _) as [[b g']| |]; cbn [gbind]; try exact H; try destruct H.
  cbn. destruct H0 as (H0 & ->). now rewrite H, H0.
Qed.
Lemma product_agree (f g g' : factor A) : f_vars g = f_vars g' -> f_data g = f_data g' -> agree (fun vs => product vs [f; g]) (fun vs => product vs [f; g']).
Proof.
  intros Ev Ed s s'. cbn [product]. unfold combine_factors. assert (Eu : union_maps [f; g] = union_maps [f; g']).
  { unfold union_maps. change [f; g] with ([f] ++ [g]). change [f; g'] with ([f] ++ [g']). rewrite !fold_left_app. match goal with |- fold_left _ _ ?a = fold_left _ _ ?b => change b with a; generalize a end. intros [nv maps]. cbn [fold_left]. rewrite Ev. reflexivity. }
  rewrite Eu. destruct (union_maps [f; g']) as [newVars maps]. pose proof (create_agree newVars None s s') as H.
  destruct (create_factor s newVars None) as [[a h]| |], (create_factor s' newVars None) as [[b h']| |]; cbn [gbind]; try exact H; try destruct H. destruct H0 as (_ & ->).
  match goal with |- same_result (gbind (foldM ?F ?i ?l) _) (gbind (foldM ?G _ _) _) => assert (E : foldM F i l = foldM G i l) end.
  { apply foldM_ext. intros [idx data] i _. match goal with |- gbind ?u _ = gbind ?w _ => replace w with u; [reflexivity|] end.
    assert (FG : forall k, f_get g k = f_get g' k) by (intros k; unfold f_get, f_index; now rewrite Ev, Ed).
    destruct maps as [|m1 [|m2 ms]]; cbn [combine foldM]; try reflexivity. destruct (mapM _ m1) as [l1| |]; cbn [gbind]; try reflexivity. destruct (f_get f l1); cbn [gbind]; try reflexivity. destruct (mapM _ m2); cbn [gbind]; try reflexivity.
    rewrite FG. destruct ms; reflexivity. }
  rewrite E. match goal with |- same_result (gbind ?r _) _ => destruct r as [[x y]| |] end; cbn; auto. split; [reflexivity|apply same_vars_refl].
Qed.
Lemma rearrange_agree (f : factor A) vars : agree (fun vs => rearrange vs f vars) (fun vs => rearrange vs f vars).
Proof.
  intros s s'. unfold rearrange. destruct (negb _); [reflexivity|]. destruct (rearrange_indices (f_vars f) vars) as [[idx eq]| |]; cbn [gbind]; try reflexivity. destruct eq.
  - pose proof (create_agree (f_vars f) (Some (f_data f)) s s') as H. destruct (create_factor s _ _) as [[a g]| |], (create_factor s' _ _) as [[b g']| |]; try exact H; try destruct H.
    cbn. destruct H0 as (H0 & H1). split; [exact H1|]. rewrite H, H0. apply same_vars_refl.
  - pose proof (create_agree vars None s s') as H. destruct (create_factor s vars None) as [[a g]| |], (create_factor s' vars None) as [[b g']| |]; cbn [gbind]; try exact H; try destruct H. destruct H0 as (_ & ->).
    match goal with |- same_result (gbind ?r _) _ => destruct r as [[[x y] z]| |] end; cbn; auto. split; [reflexivity|apply same_vars_refl].
Qed.
Lemma marginal_agree (f : factor A) v v' : v_id v = v_id v' -> v_outcomes v = v_outcomes v' -> agree (fun vs => marginal vs f v) (fun vs => marginal vs f v').
Proof.
  intros Ei Eo s s'. unfold marginal. rewrite Ei. destruct (_ <? 0); [reflexivity|]. unfold create_factor. replace (vars_rows [v]) with (vars_rows [v']) by (unfold vars_rows, v_out; cbn; now rewrite Eo).
  destruct (smake (vars_rows [v']) n0); cbn [gbind f_data]; try reflexivity. match goal with |- same_result (gbind ?r _) _ => destruct r as [[x y]| |] end; cbn; auto. split; [reflexivity|]. repeat constructor; auto.
Qed.

Lemma ready_results (n : net) cs : ready n -> forall f g x names o,
  same_result (net_normalize n f) (net_normalize (after n cs) f) /\
  same_result (net_marginal n f x) (net_marginal (after n cs) f x) /\
  same_result (net_rearrange n f names) (net_rearrange (after n cs) f names) /\
  same_result (net_normalize_utility n f g) (net_normalize_utility (after n cs) f g) /\
  net_to_evidence n x o = net_to_evidence (after n cs) x o.
Proof.
  intros R f g x names o. pose proof (after_ready cs n R) as R'. pose proof (ready_alike n cs R) as Ha. destruct R as (_ & V & _), R' as (_ & V' & _). split; [|split; [|split; [|split]]].
  - apply on_variables_agree; auto. apply normalize_agree.
  - unfold net_marginal. pose proof (alike_get _ _ x Ha) as H. destruct (sget_map (n_names n) x) as [e|], (sget_map (n_names (after n cs)) x) as [e'|]; try destruct H; [|reflexivity].
    apply on_variables_agree; auto. now apply marginal_agree.
  - unfold net_rearrange. assert (E : rearrange_variables n f names = rearrange_variables (after n cs) f names).
    { assert (L : forall y, rearrange_lookup n f y = rearrange_lookup (after n cs) f y).
      { intros y. unfold rearrange_lookup, variable_index. pose proof (alike_get _ _ y Ha) as H. destruct (sget_map (n_names n) y) as [e|], (sget_map (n_names (after n cs)) y) as [e'|]; try destruct H; [|reflexivity].
        destruct H0 as (Hi & _). replace (index_func (var_is (en_ve e)) (f_vars f)) with (index_func (var_is (en_ve e')) (f_vars f)); [reflexivity|]. unfold var_is. now rewrite Hi. }
      unfold rearrange_variables. match goal with |- gbind ?u _ = gbind ?w _ => replace w with u end.
      - match goal with |- gbind ?u _ = _ => destruct u as [[vars done]| |] end; cbn [gbind]; auto. destruct (sget names _); cbn [gbind]; auto. now rewrite L.
      - apply foldM_ext. intros [vars done] y _. now rewrite L. }
    rewrite E. destruct (rearrange_variables (after n cs) f names); cbn [gbind]; try reflexivity. apply on_variables_agree; auto. apply rearrange_agree.
  - unfold net_normalize_utility. destruct (n_ve n) as [s|] eqn:Es; [|congruence]. destruct (n_ve (after n cs)) as [s'|] eqn:Es'; [|congruence].
    assert (U : forall (m : net) t, n_ve m = Some t -> on_variables m (fun vs => invert vs g) = let! (vs, y) := invert (ve_vs t) g in Ok (with_solver m (Some (with_vs t vs)) (n_names m), y)) by (intros m t Em; unfold on_variables; now rewrite Em).
    rewrite (U n s Es), (U _ s' Es').
    pose proof (invert_agree g (ve_vs s) (ve_vs s')) as H. destruct (invert (ve_vs s) g) as [[a h]| |], (invert (ve_vs s') g) as [[b h']| |]; cbn [gbind]; try exact H; try destruct H.
    apply on_variables_agree; try discriminate. now apply product_agree.
  - unfold net_to_evidence. pose proof (alike_get _ _ x Ha) as H. destruct (sget_map (n_names n) x) as [e|], (sget_map (n_names (after n cs)) x) as [e'|]; try destruct H; [|reflexivity]. now rewrite H.
Qed.

Lemma query_ok_ready sc (n0 n : net) ev query ig r : net_solve_query sc n0 ev query ig = (n, Ok r) -> ready n.
Proof.
  intros E. assert (S : settled n0).
  { pose proof (net_solve_query_core sc n0 ev query ig) as C. rewrite E in C. cbn zeta in C. injection C as _ C. unfold query_core, solve_core in C.
    destruct (to_ve sc 0 n0 (if ig then ev else [])) as [[s names]| |] eqn:Et; [|discriminate|discriminate]. exact (solved_settled _ _ _ _ _ Et). }
  pose proof (query_ready sc n0 ev query ig S) as H. rewrite E in H. cbn [fst snd] in H. apply H. right. eauto.
Qed.
Lemma utility_ok_ready sc (n0 n : net) ev query u ig f : net_solve_utility sc n0 ev query u ig = (n, Ok f) -> ready n.
Proof.
  intros E. unfold net_solve_utility in E. assert (S : settled n0).
  { pose proof (net_solve_core sc n0 ev query true u ig) as C. rewrite E in C. cbn zeta in C. injection C as _ C. unfold solve_core in C.
    destruct (to_ve sc 0 n0 (if ig then ev else [])) as [[s names]| |] eqn:Et; [|discriminate|discriminate]. exact (solved_settled _ _ _ _ _ Et). }
  pose proof (net_solve_ready sc n0 ev query true u ig S) as H. rewrite E in H. cbn [fst snd] in H. apply H. right. eauto.
Qed.
End Results.

(** After a successful solve, what the methods for factors return does not depend on later calls. *)
Theorem C105_use_later : forall A (N : NumOps A) (n0 n : network A) sc ev query u ig history,
  ((exists r, net_solve_query sc n0 ev query ig = (n, Ok r)) \/ (exists f, net_solve_utility sc n0 ev query u ig = (n, Ok f))) ->
  forall f g x names o,
  same_result (net_normalize n f) (net_normalize (after n history) f) /\
  same_result (net_marginal n f x) (net_marginal (after n history) f x) /\
  same_result (net_rearrange n f names) (net_rearrange (after n history) f names) /\
  same_result (net_normalize_utility n f g) (net_normalize_utility (after n history) f g) /\
  net_to_evidence n x o = net_to_evidence (after n history) x o.
Proof.
  intros A N n0 n sc ev query u ig history H. apply ready_results. destruct H as [(r & E)|(f & E)]; [exact (query_ok_ready _ _ _ _ _ _ _ E)|exact (utility_ok_ready _ _ _ _ _ _ _ _ E)].
Qed.

(** Before the first solve these methods cannot be used: no variable is found. *)
Theorem C105_before_solving : forall A (N : NumOps A) name info vars (factors : list (nfactor A)) n, net_new name info vars factors = Ok n ->
  forall f g x l o, (exists p, net_normalize n f = Panic p) /\ (exists p, net_marginal n f x = Panic p) /\ (exists p, net_rearrange n f (l ++ [x]) = Panic p) /\
    (exists p, net_normalize_utility n f g = Panic p) /\ (exists e, net_to_evidence n x o = Err e).
Proof.
  intros A N name info vars factors n E f g x l o. assert (H : n_ve n = None /\ n_names n = []).
  { unfold net_new in E. destruct (collect_names vars); cbn [gbind] in E; try discriminate. destruct (foldM _ _ _) as [[fs' vs']| |]; cbn [gbind] in E; try discriminate.
    destruct (prepare_utility_nodes _ _ _); cbn [gbind] in E; try discriminate. injection E as <-. now split. }
  destruct H as (Hv & Hn). unfold net_normalize, net_marginal, net_rearrange, net_normalize_utility, net_to_evidence, on_variables. rewrite Hv, Hn. cbn [sget_map mget gbind].
  split; [eauto|]. split; [eexists; reflexivity|]. split; [|split; [eauto|eexists; reflexivity]].
  unfold rearrange_variables. destruct l as [|y l].
  - cbn [List.app removelast foldM gbind]. replace (sget [x] (zlen [x] - 1)) with (Ok x) by reflexivity. cbn [gbind]. unfold rearrange_lookup, variable_index. rewrite Hn. cbn. eauto.
  - rewrite removelast_app by discriminate. cbn [removelast]. rewrite app_nil_r. cbn [foldM]. unfold rearrange_lookup at 1, variable_index at 1. rewrite Hn. cbn. eauto.
Qed.

(** The utility of taking and leaving the umbrella, used after solving for policies and after failed and successful queries. *)
Definition umb_later : list (call (A := xnum)) := [CSolvePolicies sched_id true; CSolveQuery sched_id [("weather", "snow")] [] false; CSolveUtility sched_rev [] ["forecast"] "" false].
Definition umb_lone := net_solve_utility sched_id umb [] ["umbrella"] "" true.
Definition shown_marginal_u (r : network xnum * gores (factor xnum)) (history : list (call (A := xnum))) (x : string) : option (list shown * list nodeType) :=
  match r with
  | (n, Ok f) => match net_marginal (after n history) f x with Ok (_, g) => Some (map xshow (f_data g), map v_type (f_vars g)) | _ => None end
  | _ => None
  end.
Example C105_example : is_ok (snd umb_lone) = true /\
  shown_marginal_u umb_lone [] "umbrella" = Some ([SFin 35; SFin 70], [Decision]) /\
  shown_marginal_u umb_lone umb_later "umbrella" = Some ([SFin 35; SFin 70], [Chance]).
Proof. vm_compute. repeat split; reflexivity. Qed.

Print Assumptions C105_use_later.
Print Assumptions C105_before_solving.
