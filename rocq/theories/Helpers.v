(** Methods that work on a factor: what they use of the network. *)
From Coq Require Import ZArith List Bool String Lia.
From Verif Require Import Num GoBase VarModel GoFacts VEModel NetModel SpecNet NetHistory.
Import ListNotations.
Open Scope string_scope.
Open Scope list_scope.
Open Scope Z_scope.

(** ** Operations that do not return errors *)
Definition quiet {X} (r : gores X) : Prop := forall e, r <> Err e.
Lemma quiet_ok {X} (x : X) : quiet (Ok x). Proof. discriminate. Qed.
Lemma quiet_panic {X} p : quiet (@Panic X p). Proof. discriminate. Qed.
Lemma quiet_bind {X Y} (r : gores X) (k : X -> gores Y) : quiet r -> (forall x, quiet (k x)) -> quiet (gbind r k).
Proof. intros Hr Hk. destruct r as [x|e|p]; cbn; [apply Hk|exfalso; exact (Hr e eq_refl)|discriminate]. Qed.
Lemma quiet_foldM {S X} (f : S -> X -> gores S) l : (forall s x, quiet (f s x)) -> forall s, quiet (foldM f s l).
Proof. intros H. induction l as [|x l IH]; intros s; cbn [foldM]; [discriminate|]. apply quiet_bind; auto. Qed.
Lemma quiet_mapM {X Y} (f : X -> gores Y) l : (forall x, quiet (f x)) -> quiet (mapM f l).
Proof. intros H. induction l as [|x l IH]; cbn [mapM]; [discriminate|]. apply quiet_bind; auto. intros y. apply quiet_bind; auto. discriminate. Qed.
Lemma quiet_sget {X} (l : list X) i : quiet (sget l i).
Proof. unfold sget, quiet. intros e. repeat match goal with |- context [if ?b then _ else _] => destruct b | |- context [match ?b with _ => _ end] => destruct b end; discriminate. Qed.
Lemma quiet_sset {X} (l : list X) i x : quiet (sset l i x).
Proof. unfold sset, quiet. intros e. repeat match goal with |- context [if ?b then _ else _] => destruct b | |- context [match ?b with _ => _ end] => destruct b end; discriminate. Qed.
Lemma quiet_smake {X} n (x : X) : quiet (smake n x). Proof. unfold smake. destruct (n <? 0); discriminate. Qed.
Ltac quiet_one := first [apply quiet_ok | apply quiet_panic | apply quiet_sget | apply quiet_sset | apply quiet_smake
  | apply quiet_bind; [|intros; repeat match goal with x : (_ * _)%type |- _ => destruct x end]
  | apply quiet_foldM; intros; repeat match goal with x : (_ * _)%type |- _ => destruct x end
  | apply quiet_mapM; intros
  | match goal with |- quiet (if ?b then _ else _) => destruct b | |- quiet (match ?b with _ => _ end) => destruct b end].

Section Helpers.
Context {A : Type} {N : NumOps A}.
Notation net := (network A).
Lemma quiet_create s vars (d : option (list A)) : quiet (create_factor s vars d). Proof. unfold create_factor. repeat quiet_one. Qed.
Lemma quiet_index vs i : quiet (vars_index vs i). Proof. unfold vars_index. repeat quiet_one. Qed.
Lemma quiet_increment vs i : quiet (vars_increment vs i). Proof. unfold vars_increment. repeat quiet_one. Qed.
Lemma quiet_get (f : factor A) i : quiet (f_get f i). Proof. unfold f_get, f_index. repeat first [apply quiet_index | quiet_one]. Qed.
Lemma quiet_rearrange s (f : factor A) vars : quiet (rearrange s f vars).
Proof. unfold rearrange, rearrange_indices. repeat first [apply quiet_create | apply quiet_increment | apply quiet_get | quiet_one]. Qed.
Lemma quiet_normalize_for s (f : factor A) v : quiet (normalize_for s f v).
Proof. unfold normalize_for. repeat first [apply quiet_rearrange | quiet_one]. Qed.
Lemma quiet_policy_factors sc t (n : net) vs ids ev : quiet (policy_factors sc t n vs ids ev).
Proof. unfold policy_factors. repeat first [apply quiet_create | quiet_one]. Qed.

(** ** Tables of names that differ in node types only *)
Definition alike_entry (a b : nentry) : Prop :=
  en_var a = en_var b /\ v_id (en_ve a) = v_id (en_ve b) /\ v_outcomes (en_ve a) = v_outcomes (en_ve b).
Definition alike (m m' : list (string * nentry)) : Prop := Forall2 (fun a b => fst a = fst b /\ alike_entry (snd a) (snd b)) m m'.
Lemma alike_entry_refl e : alike_entry e e. Proof. now repeat split. Qed.
Lemma alike_refl m : alike m m.
Proof. induction m; constructor; auto. split; [reflexivity|apply alike_entry_refl]. Qed.
Lemma alike_sym m m' : alike m m' -> alike m' m.
Proof. induction 1 as [|a b m m' (E & E1 & E2 & E3) _ IH]; constructor; auto. split; [congruence|]. now repeat split. Qed.
Lemma alike_trans m m' m'' : alike m m' -> alike m' m'' -> alike m m''.
Proof.
  intros H. revert m''. induction H as [|a b m m' (E & E1 & E2 & E3) _ IH]; intros m'' H'; inversion H' as [|? c ? ? (F & F1 & F2 & F3) Hr]; subst; constructor.
  - split; [congruence|]. repeat split; congruence.
  - now apply IH.
Qed.
Lemma alike_get m m' x : alike m m' -> match sget_map m x, sget_map m' x with Some a, Some b => alike_entry a b | None, None => True | _, _ => False end.
Proof.
  unfold sget_map. induction 1 as [|(a & e) (b & e') m m' (E & He) _ IH]; [exact I|]. cbn [mget fst snd] in *. subst b. destruct (String.eqb x a); auto.
Qed.
Lemma alike_set m m' x e e' : alike m m' -> alike_entry e e' -> alike (sset_map m x e) (sset_map m' x e').
Proof.
  intros H He. unfold sset_map. induction H as [|(a & d) (b & d') m m' (E & Hd) Hrest IH]; [constructor; [split; auto|constructor]|]. cbn [mset fst snd] in *. subst b. destruct (String.eqb x a); (constructor; [now split|]); assumption.
Qed.

Definition alike_state (a b : vstate * list (string * nentry) * list nentry * string) : Prop :=
  let '(vs, names, _, total) := a in let '(vs', names', _, total') := b in
  vs_ids vs = [] /\ vs_ids vs' = [] /\ alike names names' /\ total = total'.
Lemma add_alike (n : net) P P' l : forall s s', alike_state s s' ->
  exists r r', foldM (add_net_variable (with_policies n P)) s l = Ok r /\ foldM (add_net_variable (with_policies n P')) s' l = Ok r' /\ alike_state r r'.
Proof.
  induction l as [|(i & v) l IH]; intros s s' H; [exists s, s'; auto|]. destruct s as [[[vs names] ids] total], s' as [[[vs' names'] ids'] total']. destruct H as (H1 & H2 & H3 & H4).
  cbn [foldM]. unfold add_net_variable at 1 3. cbn [n_tui with_policies n_policies]. destruct (i =? n_tui n).
  - cbn [gbind]. apply IH. now repeat split.
  - unfold add_variable. rewrite H1, H2. cbn [existsb gbind]. apply IH. repeat split; auto. apply alike_set; auto. now repeat split.
Qed.
Lemma names_alike (n : net) P P' : exists vs names ids total vs' names' ids',
  add_net_variables (with_policies n P) = Ok (vs, names, ids, total) /\ add_net_variables (with_policies n P') = Ok (vs', names', ids', total) /\ alike names names'.
Proof.
  unfold add_net_variables. cbn [n_vars with_policies]. destruct (add_alike n P P' (combine (zrange 0 (zlen (n_vars n))) (n_vars n)) (new_variables, [], [], "") (new_variables, [], [], "")) as (r & r' & E & E' & H).
  - repeat split. constructor.
  - destruct r as [[[vs names] ids] total], r' as [[[vs' names'] ids'] total']. destruct H as (_ & _ & H & <-). do 7 eexists. eauto.
Qed.

(** ** Once solved, the network has a solver *)
Lemma policies_same (n : net) : with_policies n (n_policies n) = n. Proof. now destruct n. Qed.
Definition settled (n : net) : Prop := forall sc t P ev e, to_ve sc t (with_policies n P) ev <> Err e.

Lemma factor_names_found names total l : forall s r, foldM (@add_net_factor A N names total) s l = Ok r ->
  forall f, In f l -> nf_for f <> total -> sget_map names (nf_for f) <> None /\ forall g, In g (nf_given f) -> sget_map names g <> None.
Proof.
  induction l as [|h l IH]; intros s r E f Hf Ht; [destruct Hf|]. cbn [foldM] in E. destruct (add_net_factor names total s h) as [s1| |] eqn:E1; cbn [gbind] in E; try discriminate.
  destruct Hf as [->|Hf]; [|now apply (IH s1 r E)]. unfold add_net_factor in E1. destruct s as [[vs deps] fs]. destruct (String.eqb_spec (nf_for f) total); [contradiction|].
  destruct (sget_map names (nf_for f)) as [fv|]; [|discriminate]. split; [discriminate|].
  destruct (mapM _ (nf_given f)) as [vars| |] eqn:Em; cbn [gbind] in E1; try discriminate. clear - Em. revert vars Em. induction (nf_given f) as [|g l IH]; intros vars Em x Hx; [destruct Hx|].
  cbn [mapM] in Em. destruct (sget_map names g) eqn:Eg; cbn [gbind] in Em; [|discriminate]. destruct (mapM _ l) as [ys| |] eqn:El; cbn [gbind] in Em; try discriminate.
  destruct Hx as [<-|Hx]; [congruence|]. now apply (IH ys eq_refl).
Qed.
Lemma factors_quiet names total l : (forall f, In f l -> nf_for f <> total -> sget_map names (nf_for f) <> None /\ forall g, In g (nf_given f) -> sget_map names g <> None) ->
  forall s, quiet (foldM (@add_net_factor A N names total) s l).
Proof.
  induction l as [|f l IH]; intros H s; cbn [foldM]; [apply quiet_ok|]. apply quiet_bind; [|intros x; apply IH; intros; apply H; auto; now right].
  unfold add_net_factor. destruct s as [[vs deps] fs]. destruct (String.eqb_spec (nf_for f) total) as [|Ht]; [apply quiet_ok|]. destruct (H f (or_introl eq_refl) Ht) as (H1 & H2).
  destruct (sget_map names (nf_for f)) as [fv|]; [|congruence]. apply quiet_bind.
  - clear - H2. induction (nf_given f) as [|g l IH]; cbn [mapM]; [apply quiet_ok|]. pose proof (H2 g (or_introl eq_refl)) as Hg. destruct (sget_map names g); [|congruence]. cbn [gbind].
    apply quiet_bind; [apply IH; intros; apply H2; now right|intros; apply quiet_ok].
  - intros vars. repeat first [apply quiet_create | apply quiet_normalize_for | quiet_one].
Qed.

Lemma solved_settled sc t (n : net) ev r : to_ve sc t n ev = Ok r -> settled n.
Proof.
  intros E sc' t' P ev'. change (quiet (to_ve sc' t' (with_policies n P) ev')). unfold to_ve in *. cbn [n_factors with_policies].
  destruct (names_alike n (n_policies n) P) as (vs & names & ids & total & vs' & names' & ids' & E1 & E2 & Ha). rewrite policies_same in E1. rewrite E1 in E. rewrite E2. cbn [gbind] in *.
  destruct (foldM (add_net_factor names total) (vs, [], []) (n_factors n)) as [[[vs1 deps] fs]| |] eqn:Ef; cbn [gbind] in E; try discriminate.
  destruct (policy_factors sc t n vs1 ids ev) as [[vs2 pfs]| |]; cbn [gbind] in E; try discriminate.
  destruct (prepare_utility_weights n) as [w| |] eqn:Ew; cbn [gbind] in E; try discriminate.
  apply quiet_bind.
  - apply factors_quiet. intros f Hf Ht. destruct (factor_names_found _ _ _ _ _ Ef f Hf Ht) as (H1 & H2). split.
    + pose proof (alike_get _ _ (nf_for f) Ha) as H. destruct (sget_map names (nf_for f)), (sget_map names' (nf_for f)); try congruence; destruct H.
    + intros g Hg. specialize (H2 g Hg). pose proof (alike_get _ _ g Ha) as H. destruct (sget_map names g), (sget_map names' g); try congruence; destruct H.
  - intros [[vs3 deps'] fs']. apply quiet_bind; [apply quiet_policy_factors|]. intros [vs4 pfs']. change (prepare_utility_weights (with_policies n P)) with (prepare_utility_weights n). rewrite Ew. apply quiet_ok.
Qed.

(** The solver and names left by a successful call *)
Definition ready (n : net) : Prop :=
  settled n /\ n_ve n <> None /\ exists vs names ids total, add_net_variables (with_policies n []) = Ok (vs, names, ids, total) /\ alike names (n_names n).
Lemma names_ready sc t (n : net) ev s names : to_ve sc t n ev = Ok (s, names) ->
  exists vs base ids total, add_net_variables (with_policies n []) = Ok (vs, base, ids, total) /\ alike base names.
Proof.
  intros E. unfold to_ve in E. destruct (names_alike n [] (n_policies n)) as (vs & base & ids & total & vs' & names' & ids' & E1 & E2 & Ha). rewrite policies_same in E2. rewrite E2 in E. cbn [gbind] in E.
  destruct (foldM _ _ _) as [[[vs1 deps] fs]| |] in E; cbn [gbind] in E; try discriminate.
  destruct (policy_factors _ _ _ _ _ _) as [[vs2 pfs]| |] in E; cbn [gbind] in E; try discriminate.
  destruct (prepare_utility_weights n) as [w| |]; cbn [gbind] in E; try discriminate. injection E as _ <-. do 4 eexists. eauto.
Qed.
Lemma settled_solver (n : net) a b P : settled n -> settled (with_solver (with_policies n P) a b).
Proof. intros H sc t Q ev. change (with_policies (with_solver (with_policies n P) a b) Q) with (with_solver (with_policies n Q) a b). intros e. rewrite to_ve_solver. apply H. Qed.
Lemma ready_make (n : net) P s names sc t ev s0 : settled n -> to_ve sc t (with_policies n P) ev = Ok (s0, names) -> ready (with_solver (with_policies n P) (Some s) names).
Proof.
  intros Hs E. split; [now apply settled_solver|]. split; [discriminate|]. destruct (names_ready _ _ _ _ _ _ E) as (vs & base & ids & total & E1 & Ha).
  exists vs, base, ids, total. split; auto.
Qed.
Lemma ready_policies (n : net) P : ready n -> ready (with_policies n P).
Proof.
  intros (Hs & Hv & vs & base & ids & total & E & Ha). split.
  - intros sc t Q ev e. change (with_policies (with_policies n P) Q) with (with_policies n Q). apply Hs.
  - split; [exact Hv|]. exists vs, base, ids, total. auto.
Qed.
Lemma ready_vs (n : net) s : ready n -> ready (with_solver n (Some s) (n_names n)).
Proof.
  intros (Hs & Hv & vs & base & ids & total & E & Ha). split; [|split; [discriminate|exists vs, base, ids, total; auto]].
  intros sc t P ev e. change (with_policies (with_solver n (Some s) (n_names n)) P) with (with_solver (with_policies n P) (Some s) (n_names n)). rewrite to_ve_solver. apply Hs.
Qed.

(** ** Every call keeps it *)
Lemma on_variables_ready {X} (n : net) (op : vstate -> gores (vstate * X)) n' x : ready n -> on_variables n op = Ok (n', x) -> ready n'.
Proof.
  intros H E. unfold on_variables in E. destruct (n_ve n); [|discriminate]. destruct (op _) as [[vs y]| |]; cbn [gbind] in E; try discriminate. injection E as <- _. now apply ready_vs.
Qed.
Lemma net_marginal_ready (n : net) f v n' x : ready n -> net_marginal n f v = Ok (n', x) -> ready n'.
Proof. intros H E. unfold net_marginal in E. destruct (sget_map (n_names n) v); [|discriminate]. exact (on_variables_ready _ _ _ _ H E). Qed.
Lemma query_marginals_ready (f : factor A) query : forall (n : net) res n' x, ready n ->
  foldM (fun '((n, res) : net * list (string * list A)) q => let! (n, m) := net_marginal n f q in let! (n, m) := net_normalize n m in Ok (n, sset_map res q (f_data m))) (n, res) query = Ok (n', x) -> ready n'.
Proof.
  induction query as [|q query IH]; intros n res n' x H E; cbn [foldM] in E; [injection E as <- _; exact H|].
  destruct (net_marginal n f q) as [[n1 m]| |] eqn:E1; cbn [gbind] in E; try discriminate. destruct (net_normalize n1 m) as [[n2 m2]| |] eqn:E2; cbn [gbind] in E; try discriminate.
  refine (IH n2 _ n' x _ E). exact (on_variables_ready _ _ _ _ (net_marginal_ready _ _ _ _ _ H E1) E2).
Qed.
Lemma net_solve_ready sc (n : net) ev query u uv ig : settled n -> (ready n \/ exists f, snd (net_solve sc n ev query u uv ig) = Ok f) -> ready (fst (net_solve sc n ev query u uv ig)).
Proof.
  intros Hs H. rewrite net_solve_core in *. cbn [fst snd] in *. unfold solve_core in *. destruct (to_ve sc 0 n (if ig then ev else [])) as [[s names]|e|p] eqn:E.
  - assert (M : forall s', ready (with_solver n (Some s') names)). { intros s'. rewrite <- (policies_same n) in E |- *. apply (ready_make n _ s' names sc 0%nat (if ig then ev else []) s Hs E). }
    destruct (solve_names sc s names ev query u uv) as [[s' f]| |]; cbn [fst put]; apply M.
  - exfalso. rewrite <- (policies_same n) in E. exact (Hs _ _ _ _ _ E).
  - cbn [fst put snd] in *. destruct H as [H|(f & H)]; [exact H|discriminate].
Qed.
Lemma query_ready sc (n : net) ev query ig : settled n -> (ready n \/ exists r, snd (net_solve_query sc n ev query ig) = Ok r) -> ready (fst (net_solve_query sc n ev query ig)).
Proof.
  intros Hs H. unfold net_solve_query in *. destruct (net_solve sc n ev query false "" ig) as [n1 r1] eqn:E.
  assert (R : ready n1). { pose proof (net_solve_ready sc n ev query false "" ig Hs) as G. rewrite E in G. cbn [fst snd] in G. apply G. destruct H as [H|(r & H)]; [now left|]. right. destruct r1; try discriminate. eauto. }
  destruct r1 as [f| |]; cbn [fst]; auto. destruct (query_marginals n1 f query) as [[n2 res]| |] eqn:E2; cbn [fst]; auto. unfold query_marginals in E2. exact (query_marginals_ready _ _ _ _ _ _ R E2).
Qed.
Lemma steps_ready sc st : forall k t (n : net), ready n -> ready (fst (policy_steps sc k t n st)).
Proof.
  induction k as [|k IH]; intros t n H; cbn [policy_steps]; [exact H|]. unfold assign_ve. destruct (to_ve sc t n []) as [[s names]|e|p] eqn:E; cbn [fst]; auto.
  - assert (M : forall s', ready (with_solver n (Some s') names)). { intros s'. rewrite <- (policies_same n) in E |- *. apply (ready_make n _ s' names sc t [] s (proj1 H) E). }
    destruct (ve_solve_policies sc s st) as [[s' [pols|]]| |]; cbn [fst]; [|exact (M s')|exact (M s)|exact (M s)]. apply IH. unfold store_policies. apply ready_policies. exact (M s').
  - exfalso. rewrite <- (policies_same n) in E. exact (proj1 H _ _ _ _ _ E).
Qed.
Lemma policies_ready sc (n : net) st : ready n -> ready (fst (net_solve_policies sc n st)).
Proof.
  intros H. unfold net_solve_policies. pose proof (steps_ready sc st (count_decision_steps (with_policies n []) st) 0 (with_policies n []) (ready_policies n [] H)) as R.
  destruct (policy_steps _ _ _ _ _) as [n1 r1]. cbn [fst] in R. destruct r1 as [t| |]; cbn [fst]; auto.
  assert (G : forall l (m : net) res n' res', ready m -> foldM (fun '((n, res) : net * list (string * nfactor A)) '((name, f) : string * factor A) => let! (n', r) := policy_result n name f in Ok (n', sset_map res name r)) (m, res) l = Ok (n', res') -> ready n').
  { induction l as [|(name & f) l IH]; intros m res n' res' Hm E; cbn [foldM] in E; [injection E as <- _; exact Hm|]. destruct (policy_result m name f) as [[m1 r]| |] eqn:E1; cbn [gbind] in E; try discriminate.
    refine (IH m1 _ n' res' _ E). unfold policy_result in E1. destruct (sget_map (n_names m) name); [|discriminate]. destruct (sget (f_vars f) _); cbn [gbind] in E1; try discriminate.
    destruct (on_variables m _) as [[m2 f2]| |] eqn:E2; cbn [gbind] in E1; try discriminate. destruct (mapM _ _); cbn [gbind] in E1; try discriminate. injection E1 as <- _. exact (on_variables_ready _ _ _ _ Hm E2). }
  destruct (foldM _ (n1, []) _) as [[n' res]| |] eqn:E; cbn [fst]; auto. exact (G _ _ _ _ _ R E).
Qed.
Lemma after_ready (cs : list call) : forall n : net, ready n -> ready (after n cs).
Proof.
  induction cs as [|c cs IH]; intros n H; [exact H|]. unfold after. cbn [fold_left]. apply IH. destruct c; cbn [after_call]; auto.
  - apply query_ready; [exact (proj1 H)|now left].
  - apply net_solve_ready; [exact (proj1 H)|now left].
  - now apply policies_ready.
  - unfold left_by. destruct (net_normalize n f) as [[m x]| |] eqn:E; auto. exact (on_variables_ready _ _ _ _ H E).
  - unfold left_by. destruct (net_normalize_utility n utility probs) as [[m x]| |] eqn:E; auto. unfold net_normalize_utility in E. destruct (on_variables n _) as [[m1 x1]| |] eqn:E1; cbn [gbind] in E; try discriminate.
    exact (on_variables_ready _ _ _ _ (on_variables_ready _ _ _ _ H E1) E).
  - unfold left_by. destruct (net_marginal n f v) as [[m x]| |] eqn:E; auto. exact (net_marginal_ready _ _ _ _ _ H E).
  - unfold left_by. destruct (net_rearrange n f names) as [[m x]| |] eqn:E; auto. unfold net_rearrange in E. destruct (rearrange_variables n f names); cbn [gbind] in E; try discriminate. exact (on_variables_ready _ _ _ _ H E).
Qed.
Lemma ready_alike (n : net) cs : ready n -> alike (n_names n) (n_names (after n cs)).
Proof.
  intros H. pose proof (after_ready cs n H) as (_ & _ & vs' & base' & ids' & total' & E' & Ha'). destruct H as (_ & _ & vs & base & ids & total & E & Ha).
  destruct (proj2 (after_last n cs)) as (P & a & b & Ec). rewrite Ec in E' at 1.
  assert (X : add_net_variables (with_policies (with_solver (with_policies n P) a b) []) = add_net_variables (with_policies n [])) by reflexivity.
  rewrite X, E in E'. injection E' as <- <- <- <-. exact (alike_trans _ _ _ (alike_sym _ _ Ha) Ha').
Qed.
End Helpers.
