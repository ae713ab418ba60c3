(** What an answer depends on: not on earlier queries. *)
From Coq Require Import ZArith List Bool String Lia.
From Verif Require Import Num GoBase VarModel GoFacts VEModel NetModel SpecNet.
Import ListNotations.
Open Scope string_scope.
Open Scope list_scope.
Open Scope Z_scope.

Section NH.
Context {A : Type} {N : NumOps A}.
Notation net := (network A).
Notation slot := (option (option (vestate A) * list (string * nentry))).

Definition put (n : net) (o : slot) : net := match o with Some (ve, names) => with_solver n ve names | None => n end.

Lemma with_solver_twice (n : net) a b c d : with_solver (with_solver n a b) c d = with_solver n c d.
Proof. reflexivity. Qed.

Lemma with_solver_same (n : net) : with_solver n (n_ve n) (n_names n) = n.
Proof. destruct n; reflexivity. Qed.

Lemma put_shape (n : net) o : exists a b, put n o = with_solver n a b.
Proof. destruct o as [[a b]|]; simpl; eauto. exists (n_ve n), (n_names n). symmetry. apply with_solver_same. Qed.

Definition on_solver {X} (ve : option (vestate A)) (op : vstate -> gores (vstate * X)) : gores (option (vestate A) * X) :=
  match ve with None => Panic PNil | Some s => let! (vs, x) := op (ve_vs s) in Ok (Some (with_vs s vs), x) end.

Lemma on_variables_solver {X} (n : net) (op : vstate -> gores (vstate * X)) :
  on_variables n op = let! (ve, x) := on_solver (n_ve n) op in Ok (with_solver n ve (n_names n), x).
Proof. unfold on_variables, on_solver. destruct (n_ve n) as [s|]; auto. destruct (op (ve_vs s)) as [[vs x]| |]; auto. Qed.

(** ** Queries *)
Definition marginals_core (names : list (string * nentry)) (ve : option (vestate A)) (f : factor A) (query : list string) :=
  foldM (fun '((ve, res) : option (vestate A) * list (string * list A)) q =>
    let! (ve, m) := match sget_map names q with
                    | None => Panic (PMsg "marginal: variable not found")
                    | Some vv => on_solver ve (fun vs => marginal vs f (en_ve vv))
                    end in
    let! (ve, m) := on_solver ve (fun vs => normalize vs m) in
    Ok (ve, sset_map res q (f_data m))) (ve, []) query.

Lemma query_marginals_core (n : net) f query :
  query_marginals n f query = let! (ve, res) := marginals_core (n_names n) (n_ve n) f query in Ok (with_solver n ve (n_names n), res).
Proof.
  unfold query_marginals, marginals_core. generalize (@nil (string * list A)) as res0.
  assert (G : forall query ve res0,
    foldM (fun '((n, res) : net * list (string * list A)) q =>
      let! (n, m) := net_marginal n f q in let! (n, m) := net_normalize n m in Ok (n, sset_map res q (f_data m))) (with_solver n ve (n_names n), res0) query =
    let! (ve, res) := foldM (fun '((ve, res) : option (vestate A) * list (string * list A)) q =>
      let! (ve, m) := match sget_map (n_names n) q with
                      | None => Panic (PMsg "marginal: variable not found")
                      | Some vv => on_solver ve (fun vs => marginal vs f (en_ve vv))
                      end in
      let! (ve, m) := on_solver ve (fun vs => normalize vs m) in
      Ok (ve, sset_map res q (f_data m))) (ve, res0) query in Ok (with_solver n ve (n_names n), res)).
  { clear query. induction query as [|q query IH]; intros ve res0; [reflexivity|]. cbn [foldM].
    unfold net_marginal. cbn [n_names with_solver]. destruct (sget_map (n_names n) q) as [e|]; [|reflexivity].
    rewrite on_variables_solver. cbn [n_ve n_names with_solver]. destruct (on_solver ve (fun vs => marginal vs f (en_ve e))) as [[ve1 m]| |]; try reflexivity.
    cbn [gbind]. unfold net_normalize. rewrite on_variables_solver. cbn [n_ve n_names with_solver].
    destruct (on_solver ve1 (fun vs => normalize vs m)) as [[ve2 m2]| |]; try reflexivity. cbn [gbind]. apply IH. }
  intros res0. rewrite <- G, with_solver_same. reflexivity.
Qed.

Section Calls.
Variable sc : sched.

Definition solve_core (tv : gores (vestate A * list (string * nentry))) ev query utility uv : slot * gores (factor A) :=
  match tv with
  | Ok (s, names) =>
      match solve_names sc s names ev query utility uv with
      | Ok (s', f) => (Some (Some s', names), Ok f)
      | Err e => (Some (Some s, names), Err e)
      | Panic p => (Some (Some s, names), Panic p)
      end
  | Err e => (Some (None, []), Err e)
  | Panic p => (None, Panic p)
  end.

Lemma net_solve_core (n : net) ev query u uv (ig : bool) :
  net_solve sc n ev query u uv ig =
  let c := solve_core (to_ve sc 0 n (if ig then ev else [])) ev query u uv in (put n (fst c), snd c).
Proof.
  unfold net_solve, assign_ve, solve_core. destruct (to_ve sc 0 n (if ig then ev else [])) as [[s names]| |]; auto.
  destruct (solve_names sc s names ev query u uv) as [[s' f]| |]; auto.
Qed.

Definition query_core (tv : gores (vestate A * list (string * nentry))) ev query : slot * gores (list (string * list A) * factor A) :=
  match solve_core tv ev query false "" with
  | (Some (ve, names), Ok f) =>
      match marginals_core names ve f query with
      | Ok (ve', res) => (Some (ve', names), Ok (res, f))
      | Err e => (Some (ve, names), Err e)
      | Panic p => (Some (ve, names), Panic p)
      end
  | (o, Err e) => (o, Err e)
  | (o, Panic p) => (o, Panic p)
  | (None, Ok f) => (None, Panic PNil)
  end.

Lemma net_solve_query_core (n : net) ev query (ig : bool) :
  net_solve_query sc n ev query ig =
  let c := query_core (to_ve sc 0 n (if ig then ev else [])) ev query in (put n (fst c), snd c).
Proof.
  unfold net_solve_query. rewrite net_solve_core. unfold query_core.
  destruct (to_ve sc 0 n (if ig then ev else [])) as [[s names]| |]; auto. cbn [solve_core].
  destruct (solve_names sc s names ev query false "") as [[s' f]| |]; auto. cbn [fst snd put].
  rewrite query_marginals_core. cbn [n_names n_ve with_solver].
  destruct (marginals_core names (Some s') f query) as [[ve' res]| |]; auto.
Qed.

Lemma to_ve_solver t (n : net) a b ev : to_ve sc t (with_solver n a b) ev = to_ve sc t n ev.
Proof. reflexivity. Qed.

(** Two networks that give the same solver give the same answers. *)
Theorem query_congr (n1 n2 : net) ev query (ig : bool) :
  to_ve sc 0 n1 (if ig then ev else []) = to_ve sc 0 n2 (if ig then ev else []) ->
  snd (net_solve_query sc n1 ev query ig) = snd (net_solve_query sc n2 ev query ig).
Proof. intros E. rewrite !net_solve_query_core, E. auto. Qed.

Theorem utility_congr (n1 n2 : net) ev query u (ig : bool) :
  to_ve sc 0 n1 (if ig then ev else []) = to_ve sc 0 n2 (if ig then ev else []) ->
  snd (net_solve_utility sc n1 ev query u ig) = snd (net_solve_utility sc n2 ev query u ig).
Proof. intros E. unfold net_solve_utility. rewrite !net_solve_core, E. auto. Qed.

(** ** Policies *)
Lemma assign_ve_solver t (n : net) a b ev :
  assign_ve sc t (with_solver n a b) ev = assign_ve sc t n ev \/
  exists p, assign_ve sc t (with_solver n a b) ev = (with_solver n a b, Panic p) /\ assign_ve sc t n ev = (n, Panic p).
Proof.
  unfold assign_ve. rewrite to_ve_solver. destruct (to_ve sc t n ev) as [[s names]| |]; auto. right. eauto.
Qed.

Lemma policy_steps_solver k t (n : net) a b st :
  policy_steps sc (S k) t (with_solver n a b) st = policy_steps sc (S k) t n st \/
  exists p, policy_steps sc (S k) t (with_solver n a b) st = (with_solver n a b, Panic p) /\ policy_steps sc (S k) t n st = (n, Panic p).
Proof.
  cbn [policy_steps]. destruct (assign_ve_solver t n a b []) as [E|(p & E1 & E2)].
  - left. rewrite E. reflexivity.
  - right. exists p. rewrite E1, E2. auto.
Qed.

Lemma count_pos (n : net) st : exists k, count_decision_steps n st = S k.
Proof. unfold count_decision_steps. destruct st; eauto. destruct (List.length _); eauto. Qed.

Lemma policies_again (n : net) P a b st :
  net_solve_policies sc (with_solver (with_policies n P) a b) st = net_solve_policies sc n st \/
  exists p, net_solve_policies sc (with_solver (with_policies n P) a b) st = (with_solver (with_policies n []) a b, Panic p) /\
    net_solve_policies sc n st = (with_policies n [], Panic p).
Proof.
  unfold net_solve_policies.
  change (with_policies (with_solver (with_policies n P) a b) []) with (with_solver (with_policies n []) a b).
  change (count_decision_steps (with_solver (with_policies n []) a b) st) with (count_decision_steps (with_policies n []) st).
  destruct (count_pos (with_policies n []) st) as (k & ->).
  destruct (policy_steps_solver k 0 (with_policies n []) a b st) as [E|(p & E1 & E2)].
  - left. rewrite E. reflexivity.
  - right. exists p. rewrite E1, E2. auto.
Qed.

Lemma policy_steps_shape st : forall k t (n : net), exists P a b, fst (policy_steps sc k t n st) = with_solver (with_policies n P) a b.
Proof.
  induction k as [|k IH]; intros t n; cbn [policy_steps].
  - exists (n_policies n), (n_ve n), (n_names n). destruct n; reflexivity.
  - assert (Hs : exists a b, fst (assign_ve sc t n []) = with_solver n a b).
    { unfold assign_ve. destruct (to_ve sc t n []) as [[s names]| |]; cbn [fst]; eauto. exists (n_ve n), (n_names n). symmetry. apply with_solver_same. }
    destruct Hs as (a & b & Hs). destruct (assign_ve sc t n []) as [n1 [[s names]|e|p]] eqn:E; cbn [fst] in Hs; subst n1.
    + destruct (ve_solve_policies sc s st) as [[s' [pols|]]| |]; cbn [fst].
      * destruct (IH (S (ve_tick s')) (store_policies sc (ve_tick s') (with_solver (with_solver n a b) (Some s') names) pols)) as (P & a' & b' & ->).
        exists P, a', b'. reflexivity.
      * exists (n_policies n). do 2 eexists. destruct n; reflexivity.
      * exists (n_policies n). do 2 eexists. destruct n; reflexivity.
      * exists (n_policies n). do 2 eexists. destruct n; reflexivity.
    + exists (n_policies n). do 2 eexists. destruct n; reflexivity.
    + exists (n_policies n). do 2 eexists. destruct n; reflexivity.
Qed.

Lemma policy_result_shape (n : net) name f n' r : policy_result n name f = Ok (n', r) -> exists a b, n' = with_solver n a b.
Proof.
  unfold policy_result. destruct (sget_map (n_names n) name); [|discriminate]. destruct (sget _ _); try discriminate. cbn [gbind].
  rewrite on_variables_solver. destruct (on_solver _ _) as [[ve x]| |]; try discriminate. cbn [gbind]. destruct (mapM _ _); try discriminate.
  cbn [gbind]. intros E. injection E as <- _. eauto.
Qed.

Lemma solve_policies_shape (n : net) st : exists P a b, fst (net_solve_policies sc n st) = with_solver (with_policies n P) a b.
Proof.
  unfold net_solve_policies. destruct (count_pos (with_policies n []) st) as (k & ->).
  destruct (policy_steps_shape st (S k) 0%nat (with_policies n [])) as (P & a & b & E).
  destruct (policy_steps sc (S k) 0 (with_policies n []) st) as [m [t| |]]; cbn [fst] in E; subst m; try (exists P, a, b; reflexivity).
  set (L := shuffle sc t _). change (n_policies (with_solver (with_policies (with_policies n []) P) a b)) with P in L.
  assert (G : forall L a b res0 m res, foldM (fun '((n, res) : net * list (string * nfactor A)) '((name, f) : string * factor A) =>
              let! (n', r) := policy_result n name f in Ok (n', sset_map res name r)) (with_solver (with_policies n P) a b, res0) L = Ok (m, res) ->
              exists a b, m = with_solver (with_policies n P) a b).
  { clear. induction L as [|[name f] L IH]; intros a b res0 m res; cbn [foldM].
    - intros E. injection E as <- _. eauto.
    - destruct (policy_result (with_solver (with_policies n P) a b) name f) as [[n' r]| |] eqn:E; try discriminate. cbn [gbind].
      destruct (policy_result_shape _ _ _ _ _ E) as (a' & b' & ->). apply IH. }
  destruct (foldM _ _ L) as [[m res]| |] eqn:E.
  - change (with_solver (with_policies (with_policies n []) P) a b) with (with_solver (with_policies n P) a b) in E.
    destruct (G _ _ _ _ _ _ E) as (a' & b' & ->). exists P, a', b'. reflexivity.
  - exists P, a, b. reflexivity.
  - exists P, a, b. reflexivity.
Qed.
End Calls.

(** ** Histories *)
Lemma left_on_variables {X} (n : net) (op : vstate -> gores (vstate * X)) : exists a b, left_by n (on_variables n op) = with_solver n a b.
Proof.
  rewrite on_variables_solver. destruct (on_solver _ _) as [[ve x]| |]; cbn [gbind left_by]; eauto; exists (n_ve n), (n_names n); symmetry; apply with_solver_same.
Qed.

Lemma after_other (n : net) c : (forall sc st, c <> CSolvePolicies sc st) -> exists a b, after_call n c = with_solver n a b.
Proof.
  assert (Hid : exists a b, n = with_solver n a b) by (exists (n_ve n), (n_names n); symmetry; apply with_solver_same).
  intros H. destruct c; cbn [after_call]; auto.
  - rewrite net_solve_query_core. apply put_shape.
  - unfold net_solve_utility. rewrite net_solve_core. apply put_shape.
  - exfalso. eapply H; eauto.
  - apply left_on_variables.
  - unfold net_normalize_utility. rewrite on_variables_solver. destruct (on_solver (n_ve n) _) as [[ve x]| |]; cbn [gbind left_by]; auto.
    destruct (left_on_variables (with_solver n ve (n_names n)) (fun vs => product vs [utility; x])) as (a & b & E).
    destruct (on_variables (with_solver n ve (n_names n)) (fun vs => product vs [utility; x])) as [[m y]| |]; cbn [left_by] in *; auto. subst m. exists a, b. reflexivity.
  - unfold net_marginal. destruct (sget_map (n_names n) v); cbn [left_by]; auto. apply left_on_variables.
  - unfold net_rearrange. destruct (rearrange_variables n f names); cbn [gbind left_by]; auto. apply left_on_variables.
Qed.

Definition same_problem (n m : net) : Prop := exists a b, m = with_solver n a b.

Theorem after_last (n : net) cs : same_problem (after n (last_policies cs)) (after n cs) /\
  exists P a b, after n cs = with_solver (with_policies n P) a b.
Proof.
  induction cs as [|c cs IH] using rev_ind.
  - split; [exists (n_ve n), (n_names n)|exists (n_policies n), (n_ve n), (n_names n)]; destruct n; reflexivity.
  - unfold last_policies, after. rewrite !fold_left_app. cbn [fold_left].
    fold (last_policies cs). fold (after n cs). destruct IH as [(a & b & E1) (P & a2 & b2 & E2)].
    destruct (match c with CSolvePolicies sc st => Some (sc, st) | _ => None end) as [[sc st]|] eqn:Ec.
    + destruct c; try discriminate. cbn [fold_left after_call]. split.
      * rewrite E2. destruct (policies_again sc0 n P a2 b2 stepwise) as [->|(p & -> & ->)].
        -- exists (n_ve (fst (net_solve_policies sc0 n stepwise))), (n_names (fst (net_solve_policies sc0 n stepwise))). symmetry. apply with_solver_same.
        -- exists a2, b2. reflexivity.
      * destruct (solve_policies_shape sc0 (after n cs) stepwise) as (P' & a' & b' & ->). rewrite E2. exists P', a', b'. reflexivity.
    + assert (Hn : forall sc st, c <> CSolvePolicies sc st) by (intros sc st ->; discriminate).
      destruct (after_other (after n cs) c Hn) as (a' & b' & E3). split.
      * replace (match c with CSolvePolicies _ _ => [c] | _ => last_policies cs end) with (last_policies cs) by (destruct c; auto; discriminate).
        fold (after n (last_policies cs)). exists a', b'. rewrite E3, E1. reflexivity.
      * rewrite E3, E2. exists P, a', b'. reflexivity.
Qed.

(** The answers after a history are those after its last call of SolvePolicies alone. *)
Theorem history_query (n : net) cs sc ev query ig :
  snd (net_solve_query sc (after n cs) ev query ig) = snd (net_solve_query sc (after n (last_policies cs)) ev query ig).
Proof. destruct (after_last n cs) as [(a & b & ->) _]. apply query_congr. reflexivity. Qed.

Theorem history_utility (n : net) cs sc ev query u ig :
  snd (net_solve_utility sc (after n cs) ev query u ig) = snd (net_solve_utility sc (after n (last_policies cs)) ev query u ig).
Proof. destruct (after_last n cs) as [(a & b & ->) _]. apply utility_congr. reflexivity. Qed.

Theorem history_policies (n : net) cs sc st :
  snd (net_solve_policies sc (after n cs) st) = snd (net_solve_policies sc n st) /\
  n_policies (fst (net_solve_policies sc (after n cs) st)) = n_policies (fst (net_solve_policies sc n st)).
Proof.
  destruct (after_last n cs) as [_ (P & a & b & ->)]. destruct (policies_again sc n P a b st) as [->|(p & -> & ->)]; auto.
Qed.

End NH.
