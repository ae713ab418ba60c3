(** The methods of Network with arrays in memory do what NetModel says, leave all arrays that
    existed before alone, and return new arrays. *)
From Coq Require Import ZArith List Bool String Lia.
From Verif Require Import Num GoBase VarModel VEModel NetModel TrainModel HeapVarModel HeapSim HeapVar HeapVEModel HeapVE HeapNetModel SpecHeap.
Import ListNotations.
Open Scope string_scope.
Open Scope list_scope.
Open Scope Z_scope.

Lemma foldM_same {S X} (f g : S -> X -> gores S) l : (forall s x, f s x = g s x) -> forall s, foldM f s l = foldM g s l.
Proof. intros E. induction l as [|x l IH]; intros s; cbn [foldM]; [reflexivity|]. rewrite E. destruct (g s x); cbn; auto. Qed.

Lemma mapM_same {X Y} (f g : X -> gores Y) l : (forall x, f x = g x) -> mapM f l = mapM g l.
Proof. intros E. induction l as [|x l IH]; cbn [mapM]; [reflexivity|]. now rewrite E, IH. Qed.

Section HeapNet.
Context {A : Type} {N : NumOps A}.
Notation heap := (heap A).

(** ** Networks in memory *)
Definition same_nfactor (h : heap) (f : nfactor nat) (g : nfactor A) : Prop :=
  nf_for f = nf_for g /\ nf_given f = nf_given g /\ nf_outcomes f = nf_outcomes g /\ nf_columns f = nf_columns g /\
  same_slice h (nf_table f) (nf_table g).

Definition same_solver (o : option (vestate nat)) (o' : option (vestate A)) : Prop :=
  match o, o' with Some s, Some s' => ve_vs s = ve_vs s' | None, None => True | _, _ => False end.

Definition same_net (h : heap) (n : network nat) (n' : network A) : Prop :=
  n_name n = n_name n' /\ n_info n = n_info n' /\ n_vars n = n_vars n' /\ n_names n = n_names n' /\ n_tui n = n_tui n' /\
  same_solver (n_ve n) (n_ve n') /\
  Forall2 (same_nfactor h) (n_factors n) (n_factors n') /\ Forall2 (same_entry h) (n_policies n) (n_policies n').

Lemma same_nfactor_old b h f g : old b h -> same_nfactor b f g -> same_nfactor h f g.
Proof. intros Ho (H1 & H2 & H3 & H4 & H5). repeat split; auto. eapply same_slice_old; eauto. Qed.
Lemma same_net_old b h n n' : old b h -> same_net b n n' -> same_net h n n'.
Proof.
  intros Ho (H1 & H2 & H3 & H4 & H5 & H6 & H7 & H8). repeat split; auto.
  - eapply related_impl; [|exact H7]. intros. eapply same_nfactor_old; eassumption.
  - eapply same_entries_old; eassumption.
Qed.
Lemma same_net_solver h n n' o o' names : same_net h n n' -> same_solver o o' -> same_net h (with_solver n o names) (with_solver n' o' names).
Proof. intros (H1 & H2 & H3 & H4 & H5 & H6 & H7 & H8) H. repeat split; auto. Qed.
Lemma same_net_policies h n n' l l' : same_net h n n' -> Forall2 (same_entry h) l l' -> same_net h (with_policies n l) (with_policies n' l').
Proof. intros (H1 & H2 & H3 & H4 & H5 & H6 & H7 & H8) H. repeat split; auto. Qed.

(** The arrays of a network: its tables and its policies *)
Definition table_array (f : nfactor nat) : list nat := match nf_table f with Some r => [addr r] | None => [] end.
Definition table_arrays (n : network nat) : list nat := flat_map table_array (n_factors n).
Definition policy_arrays (n : network nat) : list nat := map (fun p => addr (f_data (snd p))) (n_policies n).

(** What a method changes in a network, besides the solver: the policies, for ones in new arrays *)
Definition kept (b : heap) (n0 n : network nat) : Prop :=
  n_factors n = n_factors n0 /\ n_vars n = n_vars n0 /\
  forall a, In a (policy_arrays n) -> In a (policy_arrays n0) \/ (List.length b <= a)%nat.
Lemma kept_refl b n : kept b n n.
Proof. repeat split; auto. Qed.
Lemma kept_solver b n0 n o names : kept b n0 n -> kept b n0 (with_solver n o names).
Proof. auto. Qed.

(** Methods *)
Definition simn {X Y} (b : heap) (n0 : network nat) (h : heap) (m : nact X) (p : network A * gores Y)
  (R : heap -> network nat -> X -> Y -> Prop) : Prop :=
  let '(h', (n, r)) := m h in
  old b h' /\ same_net h' n (fst p) /\ kept b n0 n /\
  match r, snd p with
  | Ok x, Ok y => R h' n x y
  | Err e, Err e' => e = e'
  | Panic q, Panic q' => q = q'
  | _, _ => False
  end.

Lemma simn_done {X Y} b n0 h n n' (x : X) (y : Y) (R : heap -> network nat -> X -> Y -> Prop) :
  old b h -> same_net h n n' -> kept b n0 n -> R h n x y -> simn b n0 h (done n (Ok x)) (n', Ok y) R.
Proof. unfold simn, done. auto. Qed.

Lemma simn_call {X Y X' Y'} b n0 h bad bad' (m : act A X) (r : gores X') (R : heap -> X -> X' -> Prop) (k : X -> nact Y) k' (R' : heap -> network nat -> Y -> Y' -> Prop) :
  same_net h bad bad' -> kept b n0 bad -> old b h -> sim h h m r R ->
  (forall h' x y, old h h' -> old b h' -> R h' x y -> simn b n0 h' (k x) (k' y) R') ->
  simn b n0 h (call bad m k) (match r with Ok y => k' y | Err e => (bad', Err e) | Panic q => (bad', Panic q) end) R'.
Proof.
  intros Hn Hk Ho Hm K. unfold simn, call. unfold sim in Hm. destruct (m h) as [h' x]. destruct Hm as (Ho' & Hm).
  assert (old b h') by (eapply old_trans; eassumption).
  destruct x as [x|e|p], r as [y|e'|p']; try tauto.
  - apply K; auto.
  - cbn. subst e'. repeat split; auto; try apply Hk. all: apply (same_net_old _ _ _ _ Ho' Hn).
  - cbn. subst p'. repeat split; auto; try apply Hk. all: apply (same_net_old _ _ _ _ Ho' Hn).
Qed.

Lemma simn_then {X Y X' Y'} b n0 h (m : nact X) (p : network A * gores X') R (k : network nat -> X -> nact Y) k' (R' : heap -> network nat -> Y -> Y' -> Prop) :
  simn b n0 h m p R ->
  (forall h' n n' x y, old b h' -> same_net h' n n' -> kept b n0 n -> R h' n x y -> simn b n0 h' (k n x) (k' n' y) R') ->
  simn b n0 h (then_ m k) (let '(n, r) := p in match r with Ok y => k' n y | Err e => (n, Err e) | Panic q => (n, Panic q) end) R'.
Proof.
  intros Hm K. unfold simn, then_. unfold simn in Hm. destruct (m h) as [h' [n x]]. destruct p as [n' r]. cbn [fst snd] in Hm.
  destruct Hm as (Ho & Hn & Hk & Hm). destruct x as [x|e|q], r as [y|e'|q']; try tauto. apply K; auto.
Qed.

(** ** Translation to variable elimination *)
Lemma has_key_same h (l : list (string * factor nat)) (l' : list (string * factor A)) k : Forall2 (same_entry h) l l' -> has_key l k = has_key l' k.
Proof.
  intros H. unfold has_key. pose proof (mget_same String.eqb h _ _ k H) as G. destruct (sget_map l k), (sget_map l' k); tauto.
Qed.

Lemma add_net_variables_same h n n' : same_net h n n' -> add_net_variables n = add_net_variables n'.
Proof.
  intros (_ & _ & H3 & _ & H5 & _ & _ & H8). unfold add_net_variables. rewrite H3. apply foldM_same.
  intros [[[vs names] ids] total] [i v]. unfold add_net_variable. now rewrite H5, (has_key_same _ _ _ _ H8).
Qed.

Definition same_factors (h : heap) (x : vstate * depmap * list (factor nat)) (y : vstate * depmap * list (factor A)) : Prop :=
  fst x = fst y /\ Forall2 (view h) (snd x) (snd y).

Lemma sim_add_net_factor b h names total st st' f g : old b h -> same_factors h st st' -> same_nfactor h f g ->
  sim b h (h_add_net_factor names total st f) (add_net_factor names total st' g) same_factors.
Proof.
  intros Ho HF (H1 & H2 & H3 & H4 & H5). destruct st as [[vs deps] fs], st' as [[vs' deps'] gs].
  destruct HF as (E & HF). cbn [fst snd] in *. injection E as <- <-.
  unfold h_add_net_factor, add_net_factor. rewrite H1, H2.
  destruct (String.eqb (nf_for g) total); [apply sim_ret; [exact Ho|now split]|].
  destruct (sget_map names (nf_for g)) as [fv|]; [|now apply sim_fail_e].
  eapply sim_bind; [apply sim_lift, Ho|]. intros h1 vars vars' _ (-> & ->).
  destruct (nodeType_eqb (v_type (en_ve fv)) Decision); [apply sim_ret; [exact Ho|now split]|].
  destruct (nodeType_eqb (nv_type (en_var fv)) Decision); [apply sim_ret; [exact Ho|now split]|].
  eapply sim_bind with (R := fun h' x y => old h h' /\ fst x = fst y /\ view h' (snd x) (snd y)).
  - unfold same_slice in H5. destruct (nf_table f) as [r|], (nf_table g) as [w|]; try tauto.
    + destruct H5 as (a & -> & Ea). eapply sim_mono; [apply old_refl| |apply sim_create_ref; [exact Ho|exact Ea]].
      cbv beta. intros h' x y _ (-> & E1 & V). split; [apply old_refl|auto].
    + eapply sim_mono; [exact Ho| |apply sim_create_nil]. cbv beta. intros h' x y Ho' (HM & _).
      split; [exact Ho'|]. split; [apply HM|eapply made_view; eassumption].
  - intros h1 [v1 f1] [v1' g1] Ho1 (Hh & E & V). cbn [fst snd] in *. subst v1'.
    eapply sim_bind with (R := fun h' x y => old h h' /\ fst x = fst y /\ view h' (snd x) (snd y)).
    + destruct (nodeType_eqb (nv_type (en_var fv)) Chance); [|apply sim_ret; auto].
      eapply sim_bind; [apply sim_lift, Ho1|]. intros h2 lv lv' _ (-> & ->).
      eapply sim_mono; [exact Ho1| |apply sim_normalize_for, V]. cbv beta. intros h' x y Ho' HM.
      split; [eapply old_trans; eassumption|]. split; [apply HM|eapply made_view; eassumption].
    + intros h2 [v2 f2] [v2' g2] Ho2 (Hh2 & E & V2). cbn [fst snd] in *. subst v2'.
      apply sim_ret; [exact Ho2|]. split; cbn [fst snd]; auto. apply Forall2_app; [eapply views_old; eassumption|auto].
Qed.

Section Sched.
Variable sc : sched.
Hypothesis Hsc : positional sc.

Lemma sim_policy_factors b h tick n n' vs ids ev : old b h -> same_net h n n' ->
  sim b h (h_policy_factors sc tick n vs ids ev) (policy_factors sc tick n' vs ids ev)
    (fun h' x y => h' = h /\ fst x = fst y /\ Forall2 (view h) (snd x) (snd y)).
Proof.
  intros Ho (_ & _ & _ & _ & _ & _ & _ & H8). unfold h_policy_factors, policy_factors.
  apply (sim_fold (same_entry h)); [| |exact Ho|cbn; repeat split; constructor].
  - intros h1 [v1 fs] [v1' gs] [k f] [k' g] Ho1 (-> & E & HF) (Ek & V). cbn [fst snd] in *. subst v1' k'.
    destruct (has_key ev k); [apply sim_ret; auto|]. pose proof V as (_ & Hv & a & Ea & Ed). rewrite Hv.
    match goal with |- context [mapM ?p (f_vars f)] => match goal with |- context [let! variables := mapM ?q (f_vars f) in _] =>
      assert (EM : mapM p (f_vars f) = mapM q (f_vars f)) end end.
    { apply mapM_same. intros v. destruct (nodeType_eqb (v_type v) Decision); [|reflexivity].
      destruct (sget ids (v_id v)) as [e|e|p]; cbn; try reflexivity. now rewrite (has_key_same _ _ _ _ H8). }
    rewrite EM.
    eapply sim_bind; [apply sim_lift, Ho|]. intros h2 vars vars' _ (-> & ->). rewrite Ea.
    eapply sim_bind; [apply sim_create_ref; [exact Ho|exact Ed]|]. intros h2 [v2 f2] [v2' g2] Ho2 (-> & E & V2). cbn [fst snd] in *. subst v2'.
    apply sim_ret; [exact Ho|]. cbn [fst snd]. repeat split. apply Forall2_app; auto.
  - apply shuffle_related; auto.
Qed.

Lemma sim_mapA {X Y} b h (f : X -> act A Y) (g : X -> gores Y) l : old b h ->
  (forall x, sim b h (f x) (g x) (fun h' x y => h' = h /\ x = y)) ->
  sim b h (mapA f l) (mapM g l) (fun h' x y => h' = h /\ x = y).
Proof.
  intros Ho Hf. induction l as [|x l IH]; cbn [mapA mapM]; [apply sim_ret; auto|].
  eapply sim_bind; [apply Hf|]. intros h1 y y' _ (-> & ->).
  eapply sim_bind; [apply IH|]. intros h1 ys ys' _ (-> & ->). apply sim_ret; auto.
Qed.

Lemma sget_same {X Y} (R : X -> Y -> Prop) l l' i : Forall2 R l l' -> grel R (sget l i) (sget l' i).
Proof.
  intros H. unfold sget. destruct (i <? 0); [reflexivity|]. generalize (Z.to_nat i).
  induction H as [|x y l l' Hxy _ IH]; intros [|k]; cbn; auto.
Qed.

Lemma sim_weights b h n n' : old b h -> same_net h n n' ->
  sim b h (h_prepare_utility_weights n) (prepare_utility_weights n') same_slice.
Proof.
  intros Ho (_ & _ & H3 & _ & H5 & _ & H7 & _). unfold h_prepare_utility_weights, prepare_utility_weights. rewrite H3, H5.
  destruct (n_tui n' <? 0); [apply sim_ret; [exact Ho|exact I]|].
  eapply sim_bind; [apply sim_lift, Ho|]. intros h1 node node' _ (-> & ->).
  destruct (nv_factor node') as [k|]; [|now apply sim_fail_p].
  eapply sim_bind; [apply sim_grel; [exact Ho|apply sget_same, H7]|]. intros h1 f g _ (-> & (_ & Hg & _ & _ & HT)).
  rewrite Hg.
  eapply sim_bind; [apply sim_mapA with (g := fun u =>
          let idx := str_index (nf_given g) (nv_name u) in
          if idx <? 0 then Err (EMsg "utility node not included in total utility")
          else sget (slice_of (nf_table g)) idx); [exact Ho|]|].
  - intros u. cbv zeta. destruct (str_index (nf_given g) (nv_name u) <? 0) eqn:Ei; [now apply sim_fail_e|].
    unfold same_slice in HT. destruct (nf_table f) as [r|], (nf_table g) as [w|]; try tauto.
    + destruct HT as (a & -> & Ea). unfold addr, ref. cbn [hd slice_of]. now apply sim_get.
    + cbn [slice_of]. unfold sget. rewrite Ei. destruct (Z.to_nat _); now apply sim_fail_p.
  - intros h1 w w' _ (-> & ->). eapply sim_left; [reflexivity|]. apply sim_ret; [eapply old_trans; [exact Ho|apply old_app]|].
    exists (List.length h). split; [reflexivity|apply nth_last].
Qed.

Lemma new_ve_same h (l : list (factor nat)) (l' : list (factor A)) : Forall2 (view h) l l' -> forall m m', Forall2 (same_entry h) m m' ->
  Forall2 (same_entry h) (fold_left (fun m f => mset Z.eqb m (f_id f) f) l m) (fold_left (fun m f => mset Z.eqb m (f_id f) f) l' m').
Proof.
  intros H. induction H as [|f g l l' V _ IH]; intros m m' HM; cbn [fold_left]; auto. apply IH.
  pose proof V as (E & _). rewrite E. now apply mset_same.
Qed.

Lemma sim_to_ve b h tick n n' ev : old b h -> same_net h n n' ->
  sim b h (h_to_ve sc tick n ev) (to_ve sc tick n' ev) (fun h' x y => old h h' /\ same_ve h' (fst x) (fst y) /\ snd x = snd y).
Proof.
  intros Ho Hn. unfold h_to_ve, to_ve. rewrite (add_net_variables_same _ _ _ Hn).
  eapply sim_bind; [apply sim_lift, Ho|]. intros h1 x y _ (-> & ->). destruct y as [[[vs names] ids] total].
  pose proof Hn as (_ & _ & _ & _ & _ & _ & H7 & _).
  eapply sim_bind; [apply sim_at; [exact Ho|]|].
  - eapply (sim_fold (same_nfactor h) (fun h' x y => same_factors h' x y)); [|exact H7|apply old_refl|split; [reflexivity|constructor]].
    intros h1 st st' f g Ho1 HF Hfg. apply sim_add_net_factor; auto. eapply same_nfactor_old; eassumption.
  - intros h1 [[v1 d1] fs] [[v1' d1'] gs] Ho1 (Hh & E & HF). cbn [fst snd] in *. injection E as <- <-.
    eapply sim_bind; [apply sim_policy_factors; [exact Ho1|eapply same_net_old; [|eassumption]; eassumption]|].
    intros h2 [v2 ps] [v2' qs] _ (-> & E & HP). cbn [fst snd] in *. subst v2'.
    eapply sim_bind; [apply sim_at; [exact Ho1|apply sim_weights; [apply old_refl|eapply same_net_old; [|eassumption]; eassumption]]|].
    intros h2 w w' Ho2 (Hh2 & HW). apply sim_ret; [exact Ho2|]. cbn [fst snd]. split; [eapply old_trans; eassumption|].
    split; [|reflexivity]. unfold ve_new. repeat split; auto. cbn [ve_factors].
    apply new_ve_same; [|constructor]. apply Forall2_app; eapply views_old; eassumption.
Qed.

Lemma same_solver_ve h s s' : same_ve h s s' -> same_solver (Some s) (Some s').
Proof. now intros (H & _). Qed.

Lemma simn_assign_ve b n0 h tick n n' ev : old b h -> same_net h n n' -> kept b n0 n ->
  simn b n0 h (h_assign_ve sc tick n ev) (assign_ve sc tick n' ev) (fun h' m x y => same_ve h' (fst x) (fst y) /\ snd x = snd y).
Proof.
  intros Ho Hn Hk. pose proof (sim_to_ve h h tick n n' ev (old_refl h) Hn) as HS. unfold simn, h_assign_ve, assign_ve, sim in *.
  destruct (h_to_ve sc tick n ev h) as [h' r]. destruct HS as (Ho' & HS). destruct r as [[s names]|e|p], (to_ve sc tick n' ev) as [[s' names']|e'|p']; try tauto; cbn [fst snd] in *.
  - destruct HS as (_ & HS & ->). split; [eapply old_trans; eassumption|]. split; [|split; [now apply kept_solver|auto]].
    apply same_net_solver; [eapply same_net_old; [|eassumption]; eassumption|eapply same_solver_ve, HS].
  - subst e'. split; [eapply old_trans; eassumption|]. split; [|split; [now apply kept_solver|auto]].
    apply same_net_solver; [eapply same_net_old; [|eassumption]; eassumption|exact I].
  - subst p'. split; [eapply old_trans; eassumption|]. split; [eapply same_net_old; [|eassumption]; eassumption|split; [exact Hk|auto]].
Qed.

(** ** Queries *)
Definition fresh_view (b h : heap) (f : factor nat) (g : factor A) : Prop := view h f g /\ (List.length b <= addr (f_data f))%nat.
Lemma fresh_old b h h' f g : old h h' -> fresh_view b h f g -> fresh_view b h' f g.
Proof. intros Ho (V & F). split; auto. eapply view_old; [|eassumption]; eassumption. Qed.

Lemma sim_solve_names b h s s' names ev q u uv : old b h -> same_ve h s s' ->
  sim b h (h_solve_names sc s names ev q u uv) (solve_names sc s' names ev q u uv)
    (fun h' x y => same_ve h' (fst x) (fst y) /\ fresh_view b h' (snd x) (snd y)).
Proof.
  intros Ho H. unfold h_solve_names, solve_names. pose proof H as (_ & _ & _ & HT & _). rewrite HT.
  eapply sim_bind; [apply sim_lift, Ho|]. intros h1 e e' _ (-> & ->).
  eapply sim_bind; [apply sim_lift, Ho|]. intros h1 q1 q1' _ (-> & ->).
  destruct u.
  - eapply sim_bind; [apply sim_lift, Ho|]. intros h1 w w' _ (-> & ->). unfold ve_solve_utility.
    eapply sim_mono; [apply old_refl| |apply sim_ve_solve; [exact Hsc|exact Ho|now apply same_ve_tick]].
    cbv beta. intros h' x y _ (H1 & H2 & H3). split; auto. now split.
  - unfold ve_solve_query. eapply sim_mono; [apply old_refl| |apply sim_ve_solve; [exact Hsc|exact Ho|now apply same_ve_tick]].
    cbv beta. intros h' x y _ (H1 & H2 & H3). split; auto. now split.
Qed.

Lemma simn_solve b n0 h n n' ev q u uv ign : old b h -> same_net h n n' -> kept b n0 n ->
  simn b n0 h (h_net_solve sc n ev q u uv ign) (net_solve sc n' ev q u uv ign) (fun h' m f g => fresh_view b h' f g).
Proof.
  intros Ho Hn Hk. unfold h_net_solve, net_solve.
  apply (simn_then _ _ _ _ _ (fun h' m x y => same_ve h' (fst x) (fst y) /\ snd x = snd y)
    _ (fun n '(s, names) => match solve_names sc s names ev q u uv with
      | Ok (s', f) => (with_solver n (Some s') names, Ok f) | Err e => (n, Err e) | Panic p => (n, Panic p) end)).
  - now apply simn_assign_ve.
  - clear - Hsc. intros h n n' [s names] [s' names'] Ho Hn Hk (HS & E). cbn [fst snd] in *. subst names'.
    eapply simn_call; [exact Hn|exact Hk|exact Ho|apply sim_solve_names; [apply old_refl|exact HS]|].
    intros h' [t f] [t' g] Hh Ho' (HT & V & F). cbn [fst snd] in *. apply simn_done; auto.
    + apply same_net_solver; [eapply same_net_old; [|eassumption]; eassumption|eapply same_solver_ve, HT].
    + split; auto. pose proof (old_length _ _ Ho). lia.
Qed.

(** Operations on the results *)
Definition solver_only (n m : network nat) : Prop :=
  n_factors m = n_factors n /\ n_vars m = n_vars n /\ n_policies m = n_policies n.
Lemma solver_only_trans n m l : solver_only n m -> solver_only m l -> solver_only n l.
Proof. unfold solver_only. intros (-> & -> & ->). auto. Qed.
Lemma kept_only b n0 n m : kept b n0 n -> solver_only n m -> kept b n0 m.
Proof. unfold kept, solver_only, policy_arrays. intros (E1 & E2 & H) (-> & -> & ->). auto. Qed.

Definition same_op (n : network nat) (b h : heap) (x : network nat * factor nat) (y : network A * factor A) : Prop :=
  same_net h (fst x) (fst y) /\ solver_only n (fst x) /\ fresh_view b h (snd x) (snd y).

Lemma sim_on_variables h n n' op op' : same_net h n n' ->
  (forall vs, sim h h (op vs) (op' vs) (made h)) -> sim h h (h_on_variables n op) (on_variables n' op') (same_op n h).
Proof.
  intros Hn Hop. unfold h_on_variables, on_variables. pose proof Hn as (_ & _ & _ & E4 & _ & H6 & _).
  unfold same_solver in H6. destruct (n_ve n) as [s|], (n_ve n') as [s'|]; try tauto; [|now apply sim_fail_p, old_refl].
  rewrite H6. eapply sim_bind; [apply Hop|]. intros h1 [vs f] [vs' g] Ho HM. pose proof (made_view _ _ _ _ HM) as V.
  destruct HM as (E & _ & _ & Ed & _). cbn [fst snd] in *. subst vs'. apply sim_ret; [exact Ho|]. split; [|split]; cbn [fst snd].
  - rewrite E4. apply same_net_solver; [eapply same_net_old; [|eassumption]; eassumption|reflexivity].
  - repeat split.
  - split; [exact V|]. rewrite Ed. cbn. lia.
Qed.

Lemma sim_net_normalize h n n' f g : same_net h n n' -> view h f g -> sim h h (h_net_normalize n f) (net_normalize n' g) (same_op n h).
Proof. intros Hn V. apply sim_on_variables; auto. intros vs. now apply sim_normalize. Qed.

Lemma sim_net_marginal h n n' f g v : same_net h n n' -> view h f g -> sim h h (h_net_marginal n f v) (net_marginal n' g v) (same_op n h).
Proof.
  intros Hn V. unfold h_net_marginal, net_marginal. pose proof Hn as (_ & _ & _ & E4 & _). rewrite E4.
  destruct (sget_map (n_names n') v) as [e|]; [|now apply sim_fail_p, old_refl].
  apply sim_on_variables; auto. intros vs. now apply sim_marginal.
Qed.

Lemma rearrange_variables_same h n n' f g vs : same_net h n n' -> view h f g -> rearrange_variables n f vs = rearrange_variables n' g vs.
Proof.
  intros Hn (_ & Hv & _). pose proof Hn as (_ & _ & _ & E4 & _).
  assert (EL : forall v, rearrange_lookup n f v = rearrange_lookup n' g v).
  { intros v. unfold rearrange_lookup, variable_index. now rewrite E4, Hv. }
  unfold rearrange_variables. rewrite Hv.
  match goal with |- gbind (foldM ?p _ _) _ = gbind (foldM ?q _ _) _ => rewrite (foldM_same p q) end; [|intros [w d] x; now rewrite EL].
  destruct (foldM _ _ _) as [[w d]|e|p]; cbn [gbind]; auto. destruct (sget vs (zlen vs - 1)) as [x|e|p]; cbn [gbind]; auto. now rewrite EL.
Qed.

Lemma sim_net_rearrange h n n' f g vs : same_net h n n' -> view h f g -> sim h h (h_net_rearrange n f vs) (net_rearrange n' g vs) (same_op n h).
Proof.
  intros Hn V. unfold h_net_rearrange, net_rearrange. rewrite (rearrange_variables_same _ _ _ _ _ _ Hn V).
  eapply sim_bind; [apply sim_lift, old_refl|]. intros h1 w w' _ (-> & ->).
  apply sim_on_variables; auto. intros v. now apply sim_rearrange.
Qed.

Lemma same_op_later n m b h h' x y : old b h -> solver_only n m -> same_op m h h' x y -> same_op n b h' x y.
Proof.
  intros Ho Hs (H1 & H2 & V & F). split; [exact H1|]. split; [eapply solver_only_trans; eassumption|]. split; [exact V|].
  pose proof (old_length _ _ Ho). lia.
Qed.

Lemma sim_net_normalize_utility h n n' f g f2 g2 : same_net h n n' -> view h f g -> view h f2 g2 ->
  sim h h (h_net_normalize_utility n f f2) (net_normalize_utility n' g g2) (same_op n h).
Proof.
  intros Hn V V2. unfold h_net_normalize_utility, net_normalize_utility.
  eapply sim_bind; [apply sim_on_variables; [exact Hn|]; intros vs; now apply sim_invert|].
  intros h1 [m i] [m' j] Ho (Hm & Hs & Vi & Fi). cbn [fst snd] in *.
  eapply sim_mono; [exact Ho| |apply sim_on_variables; [exact Hm|]].
  - cbv beta. intros h' x y Ho' HO. eapply same_op_later; [exact Ho|exact Hs|exact HO].
  - intros vs. apply sim_product. constructor; [eapply view_old; [|eassumption]; eassumption|]. constructor; auto.
Qed.

Lemma nodup_app_last (l : list nat) a : NoDup l -> ~ In a l -> NoDup (l ++ ref a).
Proof.
  intros ND Ha. induction l as [|x l IH]; cbn; [repeat constructor; auto|]. inversion ND; subst. cbn in Ha. constructor; [|apply IH; tauto].
  rewrite in_app_iff. cbn. intuition congruence.
Qed.

(** Named slices *)
Definition same_named (b h : heap) (x : string * list nat) (y : string * list A) : Prop :=
  fst x = fst y /\ exists a, snd x = ref a /\ nth_error h a = Some (snd y) /\ (List.length b <= a)%nat.
Lemma same_named_old b h h' l l' : old h h' -> Forall2 (same_named b h) l l' -> Forall2 (same_named b h') l l'.
Proof. intros Ho. apply related_impl. intros x y (E & a & Ea & Ed & F). split; auto. exists a. repeat split; auto. eapply old_nth; eauto. Qed.

Lemma sset_map_same {X Y} (R : X -> Y -> Prop) l l' k x y : Forall2 (fun p q => fst p = fst q /\ R (snd p) (snd q)) l l' -> R x y ->
  Forall2 (fun p q => fst p = fst q /\ R (snd p) (snd q)) (sset_map l k x) (sset_map l' k y).
Proof.
  intros H Hxy. induction H as [|[k1 f1] [k2 g1] l l' (E & V1) H IH]; cbn [mset].
  - constructor; [|constructor]. split; auto.
  - cbn [fst snd] in *. subst k2. destruct (String.eqb k k1); constructor; auto; split; auto.
Qed.

(** The arrays of entries of a map stay different when an entry with a new array is stored. *)
Lemma in_sset_map {X} (arr : X -> list nat) m k x a y : arr x = [a] -> In y (flat_map (fun p => arr (snd p)) (sset_map m k x)) ->
  In y (flat_map (fun p => arr (snd p)) m) \/ y = a.
Proof.
  intros E. induction m as [|[k1 x1] m IH]; cbn [mset flat_map snd].
  - rewrite E. intros [<-|[]]. now right.
  - destruct (String.eqb k k1); cbn [flat_map snd]; rewrite !in_app_iff; [rewrite E; cbn; intuition|intuition].
Qed.
Lemma nodup_sset_map {X} (arr : X -> list nat) m k x a : arr x = [a] -> NoDup (flat_map (fun p => arr (snd p)) m) ->
  ~ In a (flat_map (fun p => arr (snd p)) m) -> NoDup (flat_map (fun p => arr (snd p)) (sset_map m k x)).
Proof.
  intros E. induction m as [|[k1 x1] m IH]; cbn [mset flat_map snd]; intros ND Ha.
  - rewrite E. repeat constructor. intros [].
  - rewrite in_app_iff in Ha. assert (NDt : NoDup (flat_map (fun p => arr (snd p)) m)). { clear - ND. induction (arr x1) as [|y l IHl]; [exact ND|]. inversion ND; auto. }
    destruct (String.eqb k k1); cbn [flat_map snd]; [rewrite E; constructor; tauto|].
    assert (NI : forall y, In y (arr x1) -> ~ In y (flat_map (fun p => arr (snd p)) (sset_map m k x))).
    { intros y Hy Hi. apply (in_sset_map arr _ _ _ a _ E) in Hi. destruct Hi as [Hi| ->]; [|tauto]. clear - ND Hy Hi.
      induction (arr x1) as [|z l IHl]; [destruct Hy|]. inversion ND; subst. destruct Hy as [->|Hy]; [|auto]. apply H1, in_app_iff. now right. }
    specialize (IH NDt ltac:(tauto)). clear - IH NI ND. induction (arr x1) as [|z l IHl]; [exact IH|]. cbn in *. inversion ND; subst. constructor.
    + rewrite in_app_iff. intros [H|H]; [apply H1, in_app_iff; now left|apply (NI z); [now left|exact H]].
    + apply IHl; [exact H2|]. intros y Hy. apply NI. now right.
Qed.

Lemma named_bound b h l l' a : Forall2 (same_named b h) l l' -> In a (flat_map (fun p : string * list nat => snd p) l) -> (a < List.length h)%nat.
Proof.
  induction 1 as [|[k r] [k' w] l l' (_ & c & Ec & Ed & _) _ IH]; [intros []|]. cbn [flat_map snd] in *. rewrite Ec.
  intros [<-|H]; auto. apply nth_error_Some. congruence.
Qed.

Lemma sim_query_marginals h n n' f g q : same_net h n n' -> view h f g ->
  sim h h (h_query_marginals n f q) (query_marginals n' g q)
    (fun h' x y => same_net h' (fst x) (fst y) /\ solver_only n (fst x) /\ Forall2 (same_named h h') (snd x) (snd y) /\
       NoDup (flat_map (fun p : string * list nat => snd p) (snd x))).
Proof.
  intros Hn V. unfold h_query_marginals, query_marginals. apply sim_fold_eq; [|apply old_refl|cbn; repeat split; auto; try apply Hn; constructor].
  intros h1 [m res] [m' res'] v Ho (Hm & Hs & HR & ND). cbn [fst snd] in *.
  eapply sim_bind; [apply sim_at; [exact Ho|apply sim_net_marginal; [exact Hm|eapply view_old; [|eassumption]; eassumption]]|].
  intros h2 [m2 f2] [m2' g2] Ho2 (Hh2 & Hm2 & Hs2 & V2 & F2). cbn [fst snd] in *.
  eapply sim_bind; [apply sim_at; [exact Ho2|apply sim_net_normalize; [exact Hm2|exact V2]]|].
  intros h3 [m3 f3] [m3' g3] Ho3 (Hh3 & Hm3 & Hs3 & V3 & F3). cbn [fst snd] in *.
  apply sim_ret; [exact Ho3|]. cbn [fst snd]. split; [exact Hm3|]. split; [eapply solver_only_trans; [eapply solver_only_trans|]; eassumption|].
  destruct V3 as (_ & _ & a & Ea & Ed).
  split; [|apply (nodup_sset_map (fun r => r) _ _ _ a Ea ND); intros Hi; apply (named_bound _ _ _ _ _ HR) in Hi;
    rewrite Ea in F3; cbn in F3; pose proof (old_length _ _ Hh2); lia].
  apply (sset_map_same (fun r w => exists a, r = ref a /\ nth_error h3 a = Some w /\ (List.length h <= a)%nat)).
  - eapply same_named_old; [|exact HR]. eapply old_trans; eassumption.
  - exists a. repeat split; auto. rewrite Ea in F3. cbn in F3. pose proof (old_length _ _ Ho2). lia.
Qed.

Lemma simn_solve_query b n0 h n n' ev q ign : old b h -> same_net h n n' -> kept b n0 n ->
  simn b n0 h (h_net_solve_query sc n ev q ign) (net_solve_query sc n' ev q ign)
    (fun h' m x y => Forall2 (same_named b h') (fst x) (fst y) /\ fresh_view b h' (snd x) (snd y) /\
       NoDup (flat_map (fun p : string * list nat => snd p) (fst x) ++ f_data (snd x))).
Proof.
  intros Ho Hn Hk. unfold h_net_solve_query, net_solve_query.
  apply (simn_then _ _ _ _ _ (fun h' m f g => fresh_view b h' f g)
    _ (fun n f => match query_marginals n f q with
      | Ok (n', res) => (n', Ok (res, f)) | Err e => (n, Err e) | Panic p => (n, Panic p) end)).
  - now apply simn_solve.
  - clear - Hsc. intros h n n' f g Ho Hn Hk (V & F).
    eapply simn_call; [exact Hn|exact Hk|exact Ho|apply sim_query_marginals; [exact Hn|exact V]|].
    intros h' [m res] [m' res'] Hh Ho' (Hm & Hs & HR & ND). cbn [fst snd] in *. apply simn_done; auto.
    + eapply kept_only; eassumption.
    + cbn [fst snd]. split; [|split; [split; [eapply view_old; [|eassumption]; eassumption|exact F]|]].
      2: { destruct V as (_ & _ & a & Ea & Ed). rewrite Ea. apply nodup_app_last; [exact ND|]. intros Hi.
           assert (B : (a < List.length h)%nat) by (apply nth_error_Some; congruence). clear - HR Hi B.
           induction HR as [|[k r] [k' w] l l' (_ & c & Ec & _ & Fc) _ IH]; [destruct Hi|]. cbn [flat_map snd] in *. rewrite Ec in Hi. destruct Hi as [->|Hi]; [lia|auto]. }
      eapply related_impl; [|exact HR].
      intros x y (E & a & Ea & Ed & Fa). split; auto. exists a. repeat split; auto. pose proof (old_length _ _ Ho). lia.
Qed.

Lemma sim_to_evidence h n n' v value : same_net h n n' ->
  sim h h (h_net_to_evidence n v value) (net_to_evidence n' v value) (fun h' r w => r = ref (List.length h) /\ h' = h ++ [w]).
Proof.
  intros (_ & _ & _ & E4 & _). unfold h_net_to_evidence, net_to_evidence. rewrite E4.
  destruct (sget_map (n_names n') v) as [e|]; [|now apply sim_fail_e, old_refl].
  destruct (str_index _ value <? 0); [now apply sim_fail_e, old_refl|].
  eapply sim_bind; [apply sim_lift, old_refl|]. intros h1 d d' _ (-> & ->). eapply sim_left; [reflexivity|].
  unfold sim, bind, put_elem, load, lift, ret, bind. rewrite nth_last. destruct (sset d' _ n1) as [d2|e2|p2]; cbn; split; auto; try apply old_app.
  all: rewrite ?upd_last; try apply old_app. auto.
Qed.

(** ** Policies *)
Lemma in_mset {K V} (eqb : K -> K -> bool) m k (v : V) x : In x (mset eqb m k v) -> In x m \/ snd x = v.
Proof.
  induction m as [|[k1 v1] m IH]; cbn [mset]; [intros [<-|[]]; now right|].
  destruct (eqb k k1); intros [<-|Hx]; cbn; auto. destruct (IH Hx); auto.
Qed.

Lemma store_policies_same b n0 h tick n n' l l' : same_net h n n' -> kept b n0 n -> Forall2 (same_policy h) l l' -> Forall (new_policy b) l ->
  same_net h (store_policies sc tick n l) (store_policies sc tick n' l') /\ kept b n0 (store_policies sc tick n l).
Proof.
  intros Hn Hk HL HN. unfold store_policies. pose proof Hn as (_ & _ & _ & E4 & _ & _ & _ & H8). rewrite E4.
  assert (HG : forall v, match mget var_eqb l v, mget var_eqb l' v with
      | Some (_, p), Some (_, q) => fresh_view b h p q | None, None => True | _, _ => False end).
  { intros v. clear - HL HN. induction HL as [|[k [f p]] [k' [g q]] l l' (E & _ & V) _ IH]; cbn [mget]; [exact I|]. cbn [fst snd] in *. subst k'.
    apply Forall_cons_iff in HN. destruct HN as (HN1 & HN2). destruct (var_eqb v k); [split; [exact V|exact HN1]|now apply IH]. }
  match goal with |- same_net h (with_policies n (fold_left ?f ?e ?m)) (with_policies n' (fold_left ?g ?e ?m')) /\ _ =>
    assert (HF : Forall2 (same_entry h) (fold_left f e m) (fold_left g e m') /\
      (forall x, In x (fold_left f e m) -> In (addr (f_data (snd x))) (policy_arrays n0) \/ (List.length b <= addr (f_data (snd x)))%nat)) end.
  { apply (fold_left_state (fun m m' => Forall2 (same_entry h) m m' /\
      (forall x, In x m -> In (addr (f_data (snd x))) (policy_arrays n0) \/ (List.length b <= addr (f_data (snd x)))%nat))).
    - intros m m' [name e] (HM & HI). destruct (negb _); [auto|]. specialize (HG (en_ve e)).
      destruct (mget var_eqb l (en_ve e)) as [[f p]|], (mget var_eqb l' (en_ve e)) as [[g q]|]; try tauto. destruct HG as (V & F). split; [now apply mset_same|].
      intros y Hy. destruct (in_mset _ _ _ _ _ Hy) as [Hi|E]; [now apply HI|]. rewrite E. now right.
    - split; [exact H8|]. intros x Hx. apply Hk. unfold policy_arrays. apply (in_map (fun p => addr (f_data (snd p)))) in Hx. exact Hx. }
  destruct HF as (HF & HI). split; [now apply same_net_policies|]. destruct Hk as (K1 & K2 & K3). repeat split; auto.
  unfold policy_arrays at 1. cbn [n_policies with_policies]. intros a Ha. apply in_map_iff in Ha. destruct Ha as (x & <- & Hx). now apply HI.
Qed.

Lemma simn_policy_steps b n0 k : forall h tick n n' single, old b h -> same_net h n n' -> kept b n0 n ->
  simn b n0 h (h_policy_steps sc k tick n single) (policy_steps sc k tick n' single) (fun h' m x y => x = y).
Proof.
  induction k as [|k IH]; intros h tick n n' single Ho Hn Hk; cbn [h_policy_steps policy_steps]; [now apply simn_done|].
  apply (simn_then _ _ _ _ _ (fun h' m x y => same_ve h' (fst x) (fst y) /\ snd x = snd y)
    _ (fun n '(s, names) => match ve_solve_policies sc s single with
          | Err e => (n, Err e)
          | Panic p => (n, Panic p)
          | Ok (s', None) => (with_solver n (Some s') names, Ok (ve_tick s'))
          | Ok (s', Some pols) =>
              policy_steps sc k (S (ve_tick s')) (store_policies sc (ve_tick s') (with_solver n (Some s') names) pols) single
          end)).
  - now apply simn_assign_ve.
  - clear - Hsc IH. intros h n n' [s names] [s' names'] Ho Hn Hk (HS & E). cbn [fst snd] in *. subst names'.
    eapply simn_call; [exact Hn|exact Hk|exact Ho|apply sim_ve_solve_policies; [exact Hsc|apply old_refl|exact HS]|].
    intros h' [t p] [t' p'] Hh Ho' (HT & HP). cbn [fst snd] in *. pose proof HT as (_ & _ & _ & ET & _).
    assert (HN : same_net h' (with_solver n (Some t) names) (with_solver n' (Some t') names)).
    { apply same_net_solver; [eapply same_net_old; [|eassumption]; eassumption|eapply same_solver_ve, HT]. }
    unfold same_policies in HP. destruct p as [l|], p' as [l'|]; try tauto.
    + rewrite ET. destruct HP as (HP & HW).
      assert (HW' : Forall (new_policy b) l).
      { eapply Forall_impl; [|exact HW]. unfold new_policy. intros x Hx. pose proof (old_length _ _ Ho). lia. }
      destruct (store_policies_same b n0 h' (ve_tick t') _ _ l l' HN (kept_solver _ _ _ _ _ Hk) HP HW') as (HN' & HK').
      now apply IH.
    + apply simn_done; auto.
Qed.

Definition named_factor (b h : heap) (x : string * nfactor nat) (y : string * nfactor A) : Prop :=
  fst x = fst y /\ same_nfactor h (snd x) (snd y) /\ exists a, nf_table (snd x) = Some (ref a) /\ (List.length b <= a)%nat.
Lemma named_factor_old b h h' l l' : old h h' -> Forall2 (named_factor b h) l l' -> Forall2 (named_factor b h') l l'.
Proof. intros Ho. apply related_impl. intros x y (E & S & F). repeat split; auto; try apply S. eapply same_slice_old; [exact Ho|apply S]. Qed.

Lemma sim_policy_result h n n' name f g : same_net h n n' -> view h f g ->
  sim h h (h_policy_result n name f) (policy_result n' name g)
    (fun h' x y => same_net h' (fst x) (fst y) /\ solver_only n (fst x) /\ named_factor h h' (name, snd x) (name, snd y)).
Proof.
  intros Hn V. unfold h_policy_result, policy_result. pose proof Hn as (_ & _ & E3 & E4 & _). pose proof V as (_ & Hv & _). rewrite E3, E4, Hv.
  destruct (sget_map (n_names n') name) as [e|]; [|now apply sim_fail_p, old_refl]. cbv zeta.
  eapply sim_bind; [apply sim_lift, old_refl|]. intros h1 x x' _ (-> & ->).
  eapply sim_bind; [apply sim_on_variables; [exact Hn|]; intros vs; now apply sim_rearrange|].
  intros h1 [m f1] [m' g1] Ho (Hm & Hs & V1 & F1). cbn [fst snd] in *.
  eapply sim_bind; [apply sim_lift, Ho|]. intros h2 gv gv' _ (-> & ->).
  apply sim_ret; [exact Ho|]. cbn [fst snd]. split; [exact Hm|]. split; [exact Hs|].
  destruct V1 as (_ & _ & a & Ea & Ed). rewrite Ea in *. split; [reflexivity|]. split.
  - repeat split. cbn. exists a. auto.
  - exists a. cbn. split; auto.
Qed.

Lemma simn_solve_policies b n0 h n n' single : old b h -> same_net h n n' -> kept b n0 n ->
  simn b n0 h (h_net_solve_policies sc n single) (net_solve_policies sc n' single)
    (fun h' m x y => exists h1, old b h1 /\ (forall a, In a (policy_arrays m) -> a < List.length h1)%nat /\ Forall2 (named_factor h1 h') x y /\ NoDup (flat_map (fun p => table_of (snd p)) x)).
Proof.
  intros Ho Hn Hk. unfold h_net_solve_policies, net_solve_policies.
  assert (Hn1 : same_net h (with_policies n []) (with_policies n' [])) by (apply same_net_policies; [exact Hn|constructor]).
  assert (Hk1 : kept b n0 (with_policies n [])).
  { destruct Hk as (K1 & K2 & K3). repeat split; auto. intros a []. }
  assert (EC : count_decision_steps (with_policies n []) single = count_decision_steps (with_policies n' []) single).
  { unfold count_decision_steps. pose proof Hn1 as (_ & _ & E3 & _). now rewrite E3. }
  cbv zeta. rewrite EC.
  apply (simn_then _ _ _ _ _ (fun h' m x y => x = y)
    _ (fun n tick => match foldM (fun '((n, res) : network A * list (string * nfactor A)) '((name, f) : string * factor A) =>
              let! (n', r) := policy_result n name f in Ok (n', sset_map res name r)) (n, []) (shuffle sc tick (n_policies n)) with
      | Ok (n', res) => (n', Ok res) | Err e => (n, Err e) | Panic p => (n, Panic p) end)).
  - now apply simn_policy_steps.
  - clear - Hsc. intros h n n' tick tick' Ho Hn Hk <-.
    eapply simn_call with (R := fun h' x y => same_net h' (fst x) (fst y) /\ solver_only n (fst x) /\ Forall2 (named_factor h h') (snd x) (snd y) /\ NoDup (flat_map (fun p => table_of (snd p)) (snd x)));
      [exact Hn|exact Hk|exact Ho| |].
    + apply (sim_fold (same_entry h)); [| |apply old_refl|cbn; repeat split; auto; try apply Hn; constructor].
      * intros h1 [m res] [m' res'] [name f] [name' g] Ho1 (Hm & Hs & HR & ND) (E & V). cbn [fst snd] in *. subst name'.
        eapply sim_bind; [apply sim_at; [exact Ho1|apply sim_policy_result; [exact Hm|eapply view_old; [|eassumption]; eassumption]]|].
        intros h2 [m2 r] [m2' r'] Ho2 (Hh & Hm2 & Hs2 & HF). cbn [fst snd] in *. apply sim_ret; [exact Ho2|]. cbn [fst snd].
        split; [exact Hm2|]. split; [eapply solver_only_trans; eassumption|]. split.
        2: { destruct HF as (_ & _ & a & Ea & Fa). cbn [snd] in *. apply (nodup_sset_map table_of _ _ _ a); [unfold table_of; now rewrite Ea|exact ND|].
             intros Hi. clear - Hi HR Fa. induction HR as [|[k x] [k' y] l l' (_ & HN & c & Ec & _) _ IH]; [destruct Hi|]. cbn [flat_map snd] in *.
             unfold table_of in Hi at 1. rewrite Ec in Hi. destruct Hi as [->|Hi]; [|auto]. destruct HN as (_ & _ & _ & _ & HS). unfold same_slice in HS. rewrite Ec in HS.
             destruct (nf_table y); [|tauto]. destruct HS as (d & Ed & Hd). injection Ed as <-. assert (a < List.length h1)%nat by (apply nth_error_Some; congruence). lia. }
        apply (sset_map_same (fun f g => same_nfactor h2 f g /\ exists a, nf_table f = Some (ref a) /\ (List.length h <= a)%nat)).
        -- eapply named_factor_old; eassumption.
        -- destruct HF as (_ & HF & a & Ea & Fa). cbn [fst snd] in *. split; [exact HF|]. exists a. split; auto. pose proof (old_length _ _ Ho1). lia.
      * apply shuffle_related; [exact Hsc|apply Hn].
    + intros h' [m res] [m' res'] Hh Ho' (Hm & Hs & HR & ND). cbn [fst snd] in *. apply simn_done; auto.
      * eapply kept_only; eassumption.
      * exists h. split; [exact Ho|]. split; [|split; [exact HR|exact ND]]. intros a Ha. destruct Hs as (_ & _ & E). unfold policy_arrays in Ha. rewrite E in Ha.
        apply in_map_iff in Ha. destruct Ha as (x & <- & Hx).
        pose proof Hn as (_ & _ & _ & _ & _ & _ & _ & H8). clear - H8 Hx.
        induction H8 as [|y z l l' (_ & (_ & _ & a & Ea & Ed)) _ IH]; [destruct Hx|]. destruct Hx as [->|Hx]; [|auto].
        rewrite Ea. cbn. apply nth_error_Some. congruence.
Qed.

End Sched.
End HeapNet.
