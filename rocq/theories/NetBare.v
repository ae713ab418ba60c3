(** Answers do not depend on names of networks, descriptions, positions and colors. *)
From Coq Require Import ZArith List Bool String Lia.
From Verif Require Import Num GoBase VarModel GoFacts VEModel NetModel SpecNet NetHistory SpecReload.
Import ListNotations.
Open Scope string_scope.
Open Scope list_scope.
Open Scope Z_scope.

Definition gmap {X Y} (h : X -> Y) (r : gores X) : gores Y := match r with Ok x => Ok (h x) | Err e => Err e | Panic p => Panic p end.
Lemma gmap_bind {X Y Z} (h : Y -> Z) (r : gores X) (k : X -> gores Y) : gmap h (gbind r k) = gbind r (fun x => gmap h (k x)).
Proof. destruct r; auto. Qed.
Lemma bind_gmap {X Y Z} (h : X -> Y) (r : gores X) (k : Y -> gores Z) : gbind (gmap h r) k = gbind r (fun x => k (h x)).
Proof. destruct r; auto. Qed.
Lemma gmap_id {X} (r : gores X) : gmap (fun x => x) r = r.
Proof. destruct r; auto. Qed.
Lemma foldM_gmap {S S' X X'} (h : S -> S') (g : X -> X') f f' : (forall a x, f' (h a) (g x) = gmap h (f a x)) ->
  forall l a, foldM f' (h a) (map g l) = gmap h (foldM f a l).
Proof. intros H. induction l as [|x l IH]; intros a; cbn [foldM map]; auto. rewrite H. destruct (f a x); cbn [gmap gbind]; auto. Qed.
Lemma mapM_ext {X Y} (f g : X -> gores Y) l : (forall x, f x = g x) -> mapM f l = mapM g l.
Proof. intros H. induction l as [|x l IH]; cbn [mapM]; auto. rewrite H, IH. auto. Qed.
Lemma mapM_map {X X' Y} (f : X' -> gores Y) (h : X -> X') l : mapM f (map h l) = mapM (fun x => f (h x)) l.
Proof. induction l as [|x l IH]; cbn [mapM map]; auto. rewrite IH. auto. Qed.
Lemma gbind_ext {X Y} (r : gores X) (k k' : X -> gores Y) : (forall x, k x = k' x) -> gbind r k = gbind r k'.
Proof. intros H. destruct r; cbn [gbind]; auto. Qed.
Lemma combine_map_r {X Y Z} (h : Y -> Z) : forall (a : list X) b, combine a (map h b) = map (fun '(i, v) => (i, h v)) (combine a b).
Proof. induction a as [|x a IH]; intros [|y b]; cbn [combine map]; auto. rewrite IH. auto. Qed.
Lemma zlen_map {X Y} (h : X -> Y) l : zlen (map h l) = zlen l.
Proof. unfold zlen. rewrite map_length. auto. Qed.
Lemma sget_gmap {X Y} (h : X -> Y) l i : sget (map h l) i = gmap h (sget l i).
Proof. unfold sget. destruct (i <? 0); auto. rewrite nth_error_map. destruct (nth_error l _); auto. Qed.

Definition on_values {V W} (h : V -> W) (m : list (string * V)) : list (string * W) := map (fun '(k, v) => (k, h v)) m.
Lemma sget_values {V W} (h : V -> W) m k : sget_map (on_values h m) k = option_map h (sget_map m k).
Proof. unfold on_values. induction m as [|[x v] m IH]; cbn [map mget]; auto. destruct (String.eqb _ _); auto. Qed.
Lemma sset_values {V W} (h : V -> W) m k v : sset_map (on_values h m) k (h v) = on_values h (sset_map m k v).
Proof. unfold on_values. induction m as [|[x w] m IH]; cbn [map mset]; auto. destruct (String.eqb _ _); cbn [map]; auto. rewrite IH. auto. Qed.

Definition bare_var (v : nvar) : nvar := mkNVar (nv_name v) (nv_type v) (nv_outcomes v) (0, 0) "" (nv_factor v).
Definition bare_entry (e : nentry) : nentry := mkEntry (bare_var (en_var e)) (en_ve e).
Notation bare_names := (on_values bare_entry).

Section Bare.
Context {A : Type} {N : NumOps A}.
Notation net := (network A).
Definition bare (n : net) : net := mkNet "" "" (map bare_var (n_vars n)) (n_factors n) (n_policies n) (n_ve n) (bare_names (n_names n)) (n_tui n).
Notation pair_bare := (fun '(s, names) => (s, bare_names names)).

Definition bare_state (st : vstate * list (string * nentry) * list nentry * string) :=
  let '(vs, names, ids, total) := st in (vs, bare_names names, map bare_entry ids, total).
Lemma bare_variables n : add_net_variables (bare n) = gmap bare_state (add_net_variables n).
Proof.
  unfold add_net_variables. cbn [bare n_vars]. rewrite zlen_map, combine_map_r.
  change (new_variables, [], [], "") with (bare_state (new_variables, [], [], "")) at 1.
  apply foldM_gmap. intros [[[vs names] ids] total] [i v]. cbn [bare_state add_net_variable bare n_tui n_policies bare_var nv_name nv_type nv_outcomes].
  destruct (i =? n_tui n). { cbn [gmap bare_state]. rewrite map_app. auto. }
  destruct (add_variable _ _ _ _) as [[vs' vv]| |]; cbn [gbind gmap bare_state]; auto. rewrite map_app. do 4 f_equal. apply (sset_values bare_entry names (nv_name v) (mkEntry v vv)).
Qed.
Lemma foldM_ext {S X} (f g : S -> X -> gores S) : (forall a x, f a x = g a x) -> forall l a, foldM f a l = foldM g a l.
Proof. intros H. induction l as [|x l IH]; intros a; cbn [foldM]; auto. rewrite H. destruct (g a x); cbn [gbind]; auto. Qed.
Lemma bare_factor names total st (f : nfactor A) : add_net_factor (bare_names names) total st f = add_net_factor names total st f.
Proof.
  destruct st as [[vs deps] fs]. cbn [add_net_factor]. destruct (String.eqb _ _); auto. rewrite sget_values. destruct (sget_map names (nf_for f)) as [e|]; cbn [option_map]; auto.
  rewrite (mapM_ext _ (fun g => match sget_map names g with None => Err (EMsg "variable in factor not found") | Some vv => Ok (en_ve vv) end)).
  2:{ intros g. rewrite sget_values. destruct (sget_map names g); auto. }
  reflexivity.
Qed.
Lemma bare_policies sc t n vs ids ev : policy_factors sc t (bare n) vs (map bare_entry ids) ev = policy_factors sc t n vs ids ev.
Proof.
  unfold policy_factors. cbn [bare n_policies]. apply foldM_ext. intros [vs' fs] [name f]. destruct (has_key ev name); auto. f_equal. apply mapM_ext. intros v. destruct (nodeType_eqb _ _); auto.
  rewrite sget_gmap, bind_gmap. destruct (sget ids (v_id v)); auto.
Qed.
Lemma filter_map_comm {X Y} (h : X -> Y) p q l : (forall x, q (h x) = p x) -> filter q (map h l) = map h (filter p l).
Proof. intros H. induction l as [|x l IH]; simpl; auto. rewrite H. destruct (p x); simpl; rewrite IH; auto. Qed.
Lemma bare_weights n : prepare_utility_weights (bare n) = prepare_utility_weights n.
Proof.
  unfold prepare_utility_weights. cbn [bare n_vars n_tui n_factors]. rewrite zlen_map, combine_map_r.
  rewrite (filter_map_comm _ (fun '((i, v) : Z * nvar) => negb (i =? n_tui n) && nodeType_eqb (nv_type v) Utility)) by (intros [i v]; auto).
  destruct (n_tui n <? 0); auto. rewrite sget_gmap, bind_gmap. apply gbind_ext. intros v. cbn [bare_var nv_factor]. destruct (nv_factor v); auto.
  apply gbind_ext. intros f. rewrite !map_map. set (l := filter _ _).
  replace (map (fun x => snd (let '(i, v0) := x in (i, bare_var v0))) l) with (map bare_var (map snd l)) by (rewrite map_map; apply map_ext; intros []; auto).
  rewrite mapM_map. auto.
Qed.
Lemma bare_to_ve sc t n ev : to_ve sc t (bare n) ev = gmap pair_bare (to_ve sc t n ev).
Proof.
  unfold to_ve. rewrite bare_variables, bind_gmap, gmap_bind. apply gbind_ext. intros [[[vs names] ids] total]. cbn [bare_state].
  rewrite (foldM_ext _ _ (bare_factor names total)). cbn [bare n_factors]. rewrite gmap_bind. apply gbind_ext. intros [[vs' deps] fs].
  rewrite bare_policies, gmap_bind. apply gbind_ext. intros [vs2 pfs]. rewrite bare_weights, gmap_bind. apply gbind_ext. intros w. auto.
Qed.
Lemma bare_assign sc t n ev : assign_ve sc t (bare n) ev = (bare (fst (assign_ve sc t n ev)), gmap pair_bare (snd (assign_ve sc t n ev))).
Proof. unfold assign_ve. rewrite bare_to_ve. destruct (to_ve sc t n ev) as [[s names]| |]; auto. Qed.

Lemma bare_solve_names sc s names ev q u uv : solve_names sc s (bare_names names) ev q u uv = solve_names sc s names ev q u uv.
Proof.
  unfold solve_names, net_evidence, net_query_vars.
  rewrite (mapM_ext (fun '((name, value) : string * string) => match sget_map (bare_names names) name with | None => _ | Some vv => _ end)
    (fun '((name, value) : string * string) => match sget_map names name with | None => Err (EMsg "evidence variable not found")
      | Some vv => let idx := str_index (nv_outcomes (en_var vv)) value in if idx <? 0 then Err (EMsg "outcome for evidence variable not found") else Ok (mkEv (en_ve vv) idx) end)).
  2:{ intros [name value]. rewrite sget_values. destruct (sget_map names name); auto. }
  apply gbind_ext. intros evs.
  rewrite (mapM_ext (fun name => match sget_map (bare_names names) name with | None => _ | Some vv => _ end)
    (fun name => match sget_map names name with None => Err (EMsg "query variable not found") | Some vv => Ok (en_ve vv) end)).
  2:{ intros name. rewrite sget_values. destruct (sget_map names name); auto. }
  apply gbind_ext. intros qs. destruct u; auto. f_equal. destruct (String.eqb uv ""); auto. rewrite sget_values. destruct (sget_map names uv); auto.
Qed.
Lemma bare_solve sc n ev q u uv ig : net_solve sc (bare n) ev q u uv ig = (bare (fst (net_solve sc n ev q u uv ig)), snd (net_solve sc n ev q u uv ig)).
Proof.
  unfold net_solve. rewrite bare_assign. destruct (assign_ve sc 0 n _) as [n1 [[s names]| |]]; cbn [fst snd gmap]; auto.
  rewrite bare_solve_names. destruct (solve_names _ _ _ _ _ _ _) as [[s' f]| |]; auto.
Qed.

Notation first_bare := (fun '(n, x) => (bare n, x)).
Lemma bare_on_variables {X} n (op : vstate -> gores (vstate * X)) : on_variables (bare n) op = gmap first_bare (on_variables n op).
Proof. unfold on_variables. cbn [bare n_ve]. destruct (n_ve n) as [s|]; auto. rewrite gmap_bind. apply gbind_ext. intros [vs x]. auto. Qed.
Lemma bare_normalize n f : net_normalize (bare n) f = gmap first_bare (net_normalize n f).
Proof. apply bare_on_variables. Qed.
Lemma bare_normalize_utility n u p : net_normalize_utility (bare n) u p = gmap first_bare (net_normalize_utility n u p).
Proof. unfold net_normalize_utility. rewrite bare_on_variables, bind_gmap, gmap_bind. apply gbind_ext. intros [m inv]. apply bare_on_variables. Qed.
Lemma bare_marginal n f v : net_marginal (bare n) f v = gmap first_bare (net_marginal n f v).
Proof. unfold net_marginal. cbn [bare n_names]. rewrite sget_values. destruct (sget_map (n_names n) v); auto. apply bare_on_variables. Qed.
Lemma bare_marginals n f q : query_marginals (bare n) f q = gmap first_bare (query_marginals n f q).
Proof.
  unfold query_marginals. rewrite <- (map_id q) at 1. refine (foldM_gmap (fun '((n, res) : net * list (string * list A)) => (bare n, res)) (fun x => x) _ _ _ q (n, [])).
  intros [m res] x. rewrite bare_marginal, bind_gmap, gmap_bind. apply gbind_ext. intros [m1 g]. rewrite bare_normalize, bind_gmap, gmap_bind. apply gbind_ext. intros [m2 h]. auto.
Qed.
Lemma bare_query sc n ev q ig : net_solve_query sc (bare n) ev q ig = (bare (fst (net_solve_query sc n ev q ig)), snd (net_solve_query sc n ev q ig)).
Proof.
  unfold net_solve_query. rewrite bare_solve. destruct (net_solve sc n ev q false "" ig) as [n1 [f| |]]; cbn [fst snd]; auto.
  rewrite bare_marginals. destruct (query_marginals n1 f q) as [[n2 res]| |]; auto.
Qed.
Lemma bare_to_evidence n v x : net_to_evidence (bare n) v x = net_to_evidence n v x.
Proof. unfold net_to_evidence. cbn [bare n_names]. rewrite sget_values. destruct (sget_map (n_names n) v); auto. Qed.
Lemma bare_index n f v : variable_index (bare n) f v = variable_index n f v.
Proof. unfold variable_index. cbn [bare n_names]. rewrite sget_values. destruct (sget_map (n_names n) v); auto. Qed.
Lemma bare_lookup n f v : rearrange_lookup (bare n) f v = rearrange_lookup n f v.
Proof. unfold rearrange_lookup. rewrite bare_index. auto. Qed.
Lemma bare_rearrange n f l : net_rearrange (bare n) f l = gmap first_bare (net_rearrange n f l).
Proof.
  unfold net_rearrange. rewrite gmap_bind. replace (rearrange_variables (bare n) f l) with (rearrange_variables n f l).
  - apply gbind_ext. intros vars. apply bare_on_variables.
  - unfold rearrange_variables. symmetry.
    rewrite (foldM_ext _ (fun '((vars, done) : list variable * list bool) name => let! (idx, x) := rearrange_lookup n f name in let! done' := sset done idx true in Ok ((vars ++ [x]), done'))).
    2:{ intros [vars done] name. rewrite bare_lookup. auto. }
    apply gbind_ext. intros [vars done]. apply gbind_ext. intros x. rewrite bare_lookup. auto.
Qed.

(** ** Policies *)
Lemma bare_store sc t n pols : by_position sc -> store_policies sc t (bare n) pols = bare (store_policies sc t n pols).
Proof.
  intros Hp. unfold store_policies, bare, with_policies. cbn [n_name n_info n_vars n_factors n_policies n_ve n_names n_tui]. f_equal.
  unfold on_values. rewrite Hp. generalize (n_policies n). induction (shuffle sc t (n_names n)) as [|[name e] l IH]; intros P; cbn [map fold_left]; auto.
Qed.
Lemma bare_steps sc st : by_position sc -> forall k t n, policy_steps sc k t (bare n) st = (bare (fst (policy_steps sc k t n st)), snd (policy_steps sc k t n st)).
Proof.
  intros Hp. induction k as [|k IH]; intros t n; cbn [policy_steps]; auto. rewrite bare_assign. destruct (assign_ve sc t n []) as [n1 [[s names]| |]]; cbn [fst snd gmap]; auto.
  destruct (ve_solve_policies sc s st) as [[s' [pols|]]| |]; auto. rewrite <- IH. f_equal. rewrite <- bare_store by auto. auto.
Qed.
Lemma bare_result n name f : policy_result (bare n) name f = gmap first_bare (policy_result n name f).
Proof.
  unfold policy_result. cbn [bare n_names n_vars]. rewrite sget_values. destruct (sget_map (n_names n) name) as [e|]; cbn [option_map]; auto. cbn [bare_entry en_ve].
  rewrite gmap_bind. apply gbind_ext. intros x. fold (bare n). rewrite bare_on_variables, bind_gmap, gmap_bind. apply gbind_ext. intros [m g]. rewrite gmap_bind.
  rewrite (mapM_ext (fun v => gbind (sget (map bare_var (n_vars n)) (v_id v)) _) (fun v => let! nv := sget (n_vars n) (v_id v) in Ok (nv_name nv))). 2:{ intros v. rewrite sget_gmap, bind_gmap. auto. }
  apply gbind_ext. intros given. auto.
Qed.
Lemma bare_solve_policies sc n st : by_position sc -> net_solve_policies sc (bare n) st = (bare (fst (net_solve_policies sc n st)), snd (net_solve_policies sc n st)).
Proof.
  intros Hp. unfold net_solve_policies. change (with_policies (bare n) []) with (bare (with_policies n [])).
  replace (count_decision_steps (bare (with_policies n [])) st) with (count_decision_steps (with_policies n []) st).
  2:{ unfold count_decision_steps. cbn [bare with_policies n_vars]. destruct st; auto. rewrite (filter_map_comm _ (fun v => nodeType_eqb (nv_type v) Decision)) by auto. rewrite map_length. auto. }
  rewrite bare_steps by auto. destruct (policy_steps _ _ _ _ _) as [m [t| |]]; cbn [fst snd]; auto. cbn [bare n_policies].
  match goal with |- context [foldM ?f (bare m, []) ?l] => replace (foldM f (bare m, []) l) with (gmap (fun '((n, res) : net * list (string * nfactor A)) => (bare n, res)) (foldM f (m, []) l)) end.
  - destruct (foldM _ (m, []) _) as [[m' res]| |]; auto.
  - symmetry. rewrite <- (map_id (shuffle sc t (n_policies m))) at 1. refine (foldM_gmap (fun '((n, res) : net * list (string * nfactor A)) => (bare n, res)) (fun x => x) _ _ _ (shuffle sc t (n_policies m)) (m, [])).
    intros [n1 res] [name f]. rewrite bare_result, bind_gmap, gmap_bind. apply gbind_ext. intros [n2 r]. auto.
Qed.

(** ** Calls *)
Lemma left_bare {X} n (r : gores (net * X)) : left_by (bare n) (gmap first_bare r) = bare (left_by n r).
Proof. destruct r as [[m x]| |]; auto. Qed.
Lemma value_bare {X} (r : gores (net * X)) : value_of (gmap first_bare r) = value_of r.
Proof. destruct r as [[m x]| |]; auto. Qed.
Theorem bare_after_call n c : orderly c -> after_call (bare n) c = bare (after_call n c).
Proof.
  destruct c; intros Ho; cbn [after_call]; auto.
  - rewrite bare_query. auto.
  - unfold net_solve_utility. rewrite bare_solve. auto.
  - rewrite bare_solve_policies by auto. auto.
  - rewrite bare_normalize. apply left_bare.
  - rewrite bare_normalize_utility. apply left_bare.
  - rewrite bare_marginal. apply left_bare.
  - rewrite bare_rearrange. apply left_bare.
Qed.
Theorem bare_reply n c : orderly c -> reply (bare n) c = reply n c.
Proof.
  destruct c; intros Ho; cbn [reply].
  - rewrite bare_query. auto.
  - unfold net_solve_utility. rewrite bare_solve. auto.
  - rewrite bare_solve_policies by auto. auto.
  - rewrite bare_normalize, value_bare. auto.
  - rewrite bare_normalize_utility, value_bare. auto.
  - rewrite bare_marginal, value_bare. auto.
  - rewrite bare_rearrange, value_bare. auto.
  - rewrite bare_to_evidence. auto.
Qed.
Theorem bare_after n cs : (forall c, In c cs -> orderly c) -> after (bare n) cs = bare (after n cs).
Proof.
  revert n. unfold after. induction cs as [|c cs IH]; intros n H; cbn [fold_left]; auto. rewrite bare_after_call by (apply H; simpl; auto). apply IH. intros d Hd. apply H. simpl; auto.
Qed.
Theorem bare_replies n n' : bare n' = bare n -> same_replies n n'.
Proof. intros E cs c H Hc. rewrite <- (bare_reply (after n cs)), <- (bare_reply (after n' cs)) by auto. rewrite <- !bare_after by auto. rewrite E. auto. Qed.
End Bare.
