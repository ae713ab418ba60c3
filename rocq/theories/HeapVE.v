(** Variable elimination with arrays in memory does what VEModel says, and leaves all arrays
    that existed before alone. *)
From Coq Require Import ZArith List Bool String Lia.
From Verif Require Import Num GoBase VarModel VEModel HeapVarModel HeapSim HeapVar HeapVEModel SpecHeap.
Import ListNotations.
Open Scope Z_scope.

Lemma positional_id : positional sched_id.
Proof. intros n X Y g l. reflexivity. Qed.
Lemma positional_rev : positional sched_rev.
Proof. intros n X Y g l. cbn. symmetry. apply map_rev. Qed.

(** Lists related element by element are the two sides of a list of pairs. *)
Lemma forall2_pairs {X Y} (R : X -> Y -> Prop) l l' : Forall2 R l l' ->
  exists z, l = map fst z /\ l' = map snd z /\ Forall (fun p => R (fst p) (snd p)) z.
Proof.
  induction 1 as [|x y l l' H _ (z & -> & -> & Hz)]; [exists []; auto|].
  exists ((x, y) :: z). cbn. auto.
Qed.

Lemma pairs_forall2 {X Y} (R : X -> Y -> Prop) z : Forall (fun p => R (fst p) (snd p)) z -> Forall2 R (map fst z) (map snd z).
Proof. induction 1; constructor; auto. Qed.

Lemma shuffle_related sc {X Y} (R : X -> Y -> Prop) n l l' : positional sc -> Forall2 R l l' -> Forall2 R (shuffle sc n l) (shuffle sc n l').
Proof.
  intros P H. destruct (forall2_pairs _ _ _ H) as (z & -> & -> & Hz). rewrite !P.
  apply pairs_forall2. rewrite Forall_forall in *. intros p Hp. apply Hz.
  eapply Permutation.Permutation_in; [apply Permutation.Permutation_sym, shuffle_perm|exact Hp].
Qed.

Lemma filter_related {X Y} (R : X -> Y -> Prop) (p : X -> bool) (q : Y -> bool) l l' :
  (forall x y, R x y -> p x = q y) -> Forall2 R l l' -> Forall2 R (filter p l) (filter q l').
Proof.
  intros E H. induction H as [|x y l l' Hxy _ IH]; cbn [filter]; [constructor|].
  rewrite (E _ _ Hxy). destruct (q y); [constructor|]; assumption.
Qed.

Lemma map_related {X Y X' Y'} (R : X -> Y -> Prop) (R' : X' -> Y' -> Prop) f g l l' :
  (forall x y, R x y -> R' (f x) (g y)) -> Forall2 R l l' -> Forall2 R' (map f l) (map g l').
Proof. intros E H. induction H; cbn [map]; constructor; auto. Qed.

Lemma fold_left_related {X Y S} (R : X -> Y -> Prop) (f : S -> X -> S) (g : S -> Y -> S) l l' :
  (forall s x y, R x y -> f s x = g s y) -> Forall2 R l l' -> forall s, fold_left f l s = fold_left g l' s.
Proof. intros E H. induction H as [|x y l l' Hxy _ IH]; intros s; cbn [fold_left]; [reflexivity|]. now rewrite (E _ _ _ Hxy). Qed.

Lemma fold_left_state {X S T} (P : S -> T -> Prop) (f : S -> X -> S) (g : T -> X -> T) l :
  (forall s t x, P s t -> P (f s x) (g t x)) -> forall s t, P s t -> P (fold_left f l s) (fold_left g l t).
Proof. intros E. induction l as [|x l IH]; intros s t H; cbn [fold_left]; auto. Qed.

Lemma related_eq {X} (l l' : list X) : Forall2 eq l l' -> l = l'.
Proof. induction 1; congruence. Qed.

Lemma related_impl {X Y} (R R' : X -> Y -> Prop) l l' : (forall x y, R x y -> R' x y) -> Forall2 R l l' -> Forall2 R' l l'.
Proof. intros E H. induction H; auto. Qed.

(** Results without effects, related *)
Definition grel {X Y} (R : X -> Y -> Prop) (r : gores X) (r' : gores Y) : Prop :=
  match r, r' with
  | Ok x, Ok y => R x y
  | Err e, Err e' => e = e'
  | Panic p, Panic p' => p = p'
  | _, _ => False
  end.

Lemma grel_bind {X Y X' Y'} (R : X -> Y -> Prop) (R' : X' -> Y' -> Prop) r r' k k' :
  grel R r r' -> (forall x y, R x y -> grel R' (k x) (k' y)) -> grel R' (gbind r k) (gbind r' k').
Proof. unfold grel, gbind. destruct r, r'; intros H K; try tauto; auto. apply (K _ _ H). Qed.

Lemma grel_refl {X} (r : gores X) : grel eq r r.
Proof. now destruct r. Qed.

Section HeapVE.
Context {A : Type} {N : NumOps A}.
Variable sc : sched.
Hypothesis Hsc : positional sc.
Notation heap := (heap A).

Lemma sim_grel {X Y} (b h : heap) (r : gores X) (r' : gores Y) R : old b h -> grel R r r' ->
  sim b h (lift r) r' (fun h' x y => h' = h /\ R x y).
Proof. intros Ho G. unfold sim, lift. split; auto. destruct r, r'; auto. Qed.

Lemma sim_at {X Y} (b h : heap) (m : act A X) (r : gores Y) R : old b h -> sim h h m r R -> sim b h m r (fun h' x y => old h h' /\ R h' x y).
Proof. intros Ho. apply sim_mono; auto. Qed.

(** Maps of factors *)
Definition same_entry {K} (h : heap) (x : K * factor nat) (y : K * factor A) : Prop := fst x = fst y /\ view h (snd x) (snd y).

(** A slice of numbers that may be nil *)
Definition same_slice (h : heap) (r : option (list nat)) (w : option (list A)) : Prop :=
  match r, w with
  | None, None => True
  | Some r, Some w => exists a, r = ref a /\ nth_error h a = Some w
  | _, _ => False
  end.

Definition same_ve (h : heap) (s : vestate nat) (s' : vestate A) : Prop :=
  ve_vs s = ve_vs s' /\ ve_elim s = ve_elim s' /\ ve_deps s = ve_deps s' /\ ve_tick s = ve_tick s' /\
  Forall2 (same_entry h) (ve_factors s) (ve_factors s') /\ same_slice h (ve_weights s) (ve_weights s').

Lemma same_entry_old {K} b h (x : K * factor nat) y : old b h -> same_entry b x y -> same_entry h x y.
Proof. intros Ho (E & V). split; auto. eapply view_old; eauto. Qed.
Lemma same_entries_old {K} b h (l : list (K * factor nat)) l' : old b h -> Forall2 (same_entry b) l l' -> Forall2 (same_entry h) l l'.
Proof. intros Ho. apply related_impl. intros x y. now apply same_entry_old. Qed.
Lemma same_slice_old b h r w : old b h -> same_slice b r w -> same_slice h r w.
Proof. intros Ho. unfold same_slice. destruct r, w; auto. intros (a & E & H). exists a. split; auto. eapply old_nth; eauto. Qed.
Lemma same_ve_old b h s s' : old b h -> same_ve b s s' -> same_ve h s s'.
Proof.
  intros Ho (H1 & H2 & H3 & H4 & H5 & H6). repeat split; auto; [eapply same_entries_old|eapply same_slice_old]; eauto.
Qed.

Lemma same_ve_vs h s s' vs : same_ve h s s' -> same_ve h (with_vs s vs) (with_vs s' vs).
Proof. intros (H1 & H2 & H3 & H4 & H5 & H6). repeat split; auto. Qed.
Lemma same_ve_elim h s s' e : same_ve h s s' -> same_ve h (with_elim s e) (with_elim s' e).
Proof. intros (H1 & H2 & H3 & H4 & H5 & H6). repeat split; auto. Qed.
Lemma same_ve_tick h s s' t : same_ve h s s' -> same_ve h (with_tick s t) (with_tick s' t).
Proof. intros (H1 & H2 & H3 & H4 & H5 & H6). repeat split; auto. Qed.
Lemma same_ve_factors h s s' l l' : same_ve h s s' -> Forall2 (same_entry h) l l' -> same_ve h (with_factors s l) (with_factors s' l').
Proof. intros (H1 & H2 & H3 & H4 & H5 & H6) H. repeat split; auto. Qed.

Lemma range_same h s s' : same_ve h s s' ->
  Forall2 (same_entry h) (fst (range_factors sc s)) (fst (range_factors sc s')) /\
  same_ve h (snd (range_factors sc s)) (snd (range_factors sc s')).
Proof.
  intros H. pose proof H as (H1 & H2 & H3 & H4 & H5 & H6). unfold range_factors. cbn [fst snd]. rewrite H4. split.
  - now apply shuffle_related.
  - rewrite <- H4 at 1. rewrite H4. now apply same_ve_tick.
Qed.

Lemma mget_same {K} (eqb : K -> K -> bool) h l l' k : Forall2 (same_entry h) l l' ->
  match mget eqb l k, mget eqb l' k with Some f, Some g => view h f g | None, None => True | _, _ => False end.
Proof.
  induction 1 as [|[k1 f] [k2 g] l l' (E & V) _ IH]; cbn [mget]; [exact I|]. cbn [fst snd] in *. subst k2.
  destruct (eqb k k1); auto.
Qed.

Lemma mset_same {K} (eqb : K -> K -> bool) h l l' k f g : Forall2 (same_entry h) l l' -> view h f g ->
  Forall2 (same_entry h) (mset eqb l k f) (mset eqb l' k g).
Proof.
  intros H V. induction H as [|[k1 f1] [k2 g1] l l' (E & V1) H IH]; cbn [mset].
  - constructor; [|constructor]. split; auto.
  - cbn [fst snd] in *. subst k2. destruct (eqb k k1); constructor; auto; split; auto.
Qed.

Lemma mdel_same {K} (eqb : K -> K -> bool) h l l' k : Forall2 (same_entry h) l l' ->
  Forall2 (same_entry h) (mdel eqb l k) (mdel eqb l' k).
Proof. apply filter_related. intros x y (E & _). now rewrite E. Qed.

Lemma del_all_same h l l' ks : Forall2 (same_entry h) l l' -> Forall2 (same_entry h) (del_all l ks) (del_all l' ks).
Proof.
  unfold del_all. revert l l'. induction ks as [|k ks IH]; intros l l' H; cbn [fold_left]; auto. apply IH. now apply mdel_same.
Qed.

(** Filtering entries by the variables of the factors *)
Lemma filter_vars (p : list variable -> bool) h (l : list (Z * factor nat)) l' : Forall2 (same_entry h) l l' ->
  Forall2 (same_entry h) (filter (fun '(_, f) => p (f_vars f)) l) (filter (fun '(_, f) => p (f_vars f)) l').
Proof. apply filter_related. intros [k f] [k' g] (_ & (_ & Hv & _)). cbn [snd] in Hv. now rewrite Hv. Qed.

Lemma keys_same h (l : list (Z * factor nat)) l' : Forall2 (same_entry h) l l' -> map fst l = map fst l'.
Proof. intros H. apply related_eq. eapply map_related; [|exact H]. now intros x y (E & _). Qed.
Lemma values_same h (l : list (Z * factor nat)) l' : Forall2 (same_entry h) l l' -> Forall2 (view h) (map snd l) (map snd l').
Proof. apply map_related. now intros x y (_ & V). Qed.

Ltac same_range H s s' := let l := fresh "entries" in let l' := fresh "entries'" in let t := fresh "s" in let t' := fresh "s'" in
  let H1 := fresh "HE" in let H2 := fresh "HS" in
  pose proof (range_same _ _ _ H) as (H1 & H2); destruct (range_factors sc s) as [l t]; destruct (range_factors sc s') as [l' t']; cbn [fst snd] in H1, H2.

Lemma sim_restrict_evidence b h s s' ev : old b h -> same_ve h s s' ->
  sim b h (h_restrict_evidence sc s ev) (restrict_evidence sc s' ev) same_ve.
Proof.
  intros Ho H. unfold h_restrict_evidence, restrict_evidence. same_range H s s'.
  rewrite (keys_same h _ _ (filter_vars (fun vs => contains_var vs (ev_var ev)) h _ _ HE)).
  apply sim_fold_eq; [|exact Ho|exact HS]. clear - Hsc. intros h s s' idx Ho H.
  pose proof H as (H1 & H2 & H3 & H4 & H5 & H6).
  pose proof (mget_same Z.eqb h _ _ idx H5) as G.
  destruct (mget Z.eqb (ve_factors s) idx) as [f|], (mget Z.eqb (ve_factors s') idx) as [g|]; try tauto; [|now apply sim_fail_p].
  cbn [with_factors ve_vs]. rewrite H1. eapply sim_bind; [apply sim_at; [exact Ho|apply sim_restrict, G]|].
  intros h' [vs f2] [vs' g2] Ho' (Ho2 & HM). pose proof (made_view _ _ _ _ HM) as V. destruct HM as (E & Hi & _). cbn [fst snd] in *. subst vs'.
  rewrite Hi. apply sim_ret; [exact Ho'|].
  apply same_ve_factors; [apply same_ve_vs, same_ve_factors|].
  - eapply same_ve_old; eauto.
  - eapply same_entries_old; [exact Ho2|]. now apply mdel_same.
  - cbn [ve_factors with_factors]. apply mset_same; [|exact V]. eapply same_entries_old; [exact Ho2|]. now apply mdel_same.
Qed.

Lemma sim_eliminate_evidence b h s s' evs : old b h -> same_ve h s s' ->
  sim b h (h_eliminate_evidence sc s evs) (eliminate_evidence sc s' evs) same_ve.
Proof. intros Ho H. apply sim_fold_eq; auto. intros. now apply sim_restrict_evidence. Qed.

Lemma utility_vars_same h s s' : same_ve h s s' -> utility_vars s = utility_vars s'.
Proof. intros (H1 & _). unfold utility_vars. now rewrite H1. Qed.

Lemma remove_utilities_same h s s' e : same_ve h s s' -> same_ve h (remove_utilities sc s e) (remove_utilities sc s' e).
Proof.
  intros H. unfold remove_utilities. rewrite (utility_vars_same _ _ _ H).
  destruct (filter _ (utility_vars s')) as [|u us]; [exact H|]. same_range H s s'.
  rewrite (keys_same h _ _ (filter_vars (fun vs => existsb (contains_var vs) (u :: us)) h _ _ HE)).
  apply same_ve_factors; auto. apply del_all_same. apply HS.
Qed.

Lemma sim_sum_utilities b h s s' : old b h -> same_ve h s s' -> sim b h (h_sum_utilities sc s) (sum_utilities sc s') same_ve.
Proof.
  intros Ho H. unfold h_sum_utilities, sum_utilities. rewrite (utility_vars_same _ _ _ H).
  destruct (utility_vars s') as [|u0 us]; [now apply sim_ret|]. set (utils := u0 :: us). clearbody utils. same_range H s s'. clear H.
  rename s0 into t, s'0 into t'. pose proof HS as (E1 & E2 & E3 & E4 & E5 & E6).
  eapply sim_bind with (R := fun h' '(vs, ind, fs) '(vs', ind', gs) => old h h' /\ vs = vs' /\ ind = ind' /\ Forall2 (view h') fs gs).
  - rewrite E1. apply (sim_fold (same_entry h)); [|exact HE|exact Ho|split; [apply old_refl|auto]].
    intros h' [[vs ind] fs] [[vs' ind'] gs] [k f] [k' g] Ho' (Hh & -> & -> & HF) (Ek & V). cbn [fst snd] in Ek, V. subst k'.
    pose proof V as (_ & Hv & _). rewrite Hv. destruct (index_func _ utils <? 0); [apply sim_ret; auto|].
    pose proof (same_slice_old _ _ _ _ Hh E6) as E6'. unfold same_slice in E6'.
    destruct (ve_weights t) as [r|], (ve_weights t') as [w|]; try tauto.
    + destruct E6' as (a & -> & Ea). unfold addr, ref. cbn [hd].
      eapply sim_bind; [apply sim_get; [exact Ho'|exact Ea]|]. intros h1 wi wi' _ (-> & ->).
      eapply sim_left; [reflexivity|].
      assert (Ho1 : old h' (h' ++ [[wi']])) by apply old_app.
      eapply sim_bind; [apply sim_at; [eapply old_trans; eassumption|apply sim_product with (gs := [g; mkFactor 0 [] [wi']])]|].
      * constructor; [eapply view_old; [|exact V]; eapply old_trans; [exact Hh|exact Ho1]|]. constructor; [|constructor].
        repeat split; auto. exists (List.length h'). split; [reflexivity|apply nth_last].
      * intros h2 [vs1 ff] [vs2 gg] Ho2 (Ho3 & HM). pose proof (made_view _ _ _ _ HM) as V'. destruct HM as (E & _). cbn [fst snd] in *. subst vs2.
        assert (old h' h2) by (eapply old_trans; eassumption).
        apply sim_ret; [exact Ho2|]. split; [eapply old_trans; eassumption|]. repeat split. apply Forall2_app; [eapply views_old; eassumption|]. constructor; auto.
    + apply sim_ret; [exact Ho'|]. repeat split; auto. apply Forall2_app; auto. constructor; [|constructor]. eapply view_old; eassumption.
  - intros h1 [[vs ind] fs] [[vs' ind'] gs] Ho1 (Hh & -> & -> & HF).
    eapply sim_bind; [apply sim_at; [exact Ho1|apply sim_sum, HF]|].
    intros h2 [vs1 tot] [vs2 tot'] Ho2 (Ho3 & HM). pose proof (made_view _ _ _ _ HM) as V. destruct HM as (E & _). cbn [fst snd] in *. subst vs2.
    rewrite E2.
    eapply sim_bind with (R := fun h' '(vs, f, e) '(vs', g, e') => old h h' /\ vs = vs' /\ e = e' /\ view h' f g).
    + apply sim_fold_eq; [|exact Ho2|split; [eapply old_trans; eassumption|auto]].
      intros h3 [[v3 f3] e3] [[v3' g3] e3'] u Ho4 (Ho5 & -> & -> & V3).
      eapply sim_bind; [apply sim_at; [exact Ho4|apply sim_sum_out, V3]|].
      intros h4 [v4 f4] [v4' g4] Ho6 (Ho7 & HM). pose proof (made_view _ _ _ _ HM) as V4. destruct HM as (E & _). cbn [fst snd] in *. subst v4'.
      eapply sim_bind; [apply sim_lift, Ho6|]. intros h5 e5 e5' _ (-> & ->).
      apply sim_ret; [exact Ho6|]. split; [eapply old_trans; eassumption|auto].
    + intros h3 [[v3 f3] e3] [[v3' g3] e3'] Ho4 (Ho5 & -> & -> & V3).
      apply sim_ret; [exact Ho4|].
      pose proof V3 as (Hid & _). rewrite Hid.
      apply same_ve_factors; [apply same_ve_elim, same_ve_vs; eapply same_ve_old; eassumption|].
      apply mset_same; [|exact V3]. apply del_all_same. eapply same_entries_old; eassumption.
Qed.

Lemma get_decisions_same h s s' : same_ve h s s' ->
  grel (fun x y => same_ve h (fst x) (fst y) /\ snd x = snd y) (get_decisions sc s) (get_decisions sc s').
Proof.
  intros H. pose proof H as (H1 & H2 & H3 & H4 & H5 & H6). unfold get_decisions. rewrite H1, H3, H4.
  eapply grel_bind; [apply grel_refl|]. intros [t r] y <-. cbn. split; auto. now apply same_ve_tick.
Qed.

Lemma get_decision_parents_same h s s' single : same_ve h s s' ->
  grel (fun x y => same_ve h (fst x) (fst y) /\ snd x = snd y) (get_decision_parents sc s single) (get_decision_parents sc s' single).
Proof.
  intros H. pose proof H as (H1 & H2 & H3 & H4 & H5 & H6). unfold get_decision_parents. rewrite H1, H3.
  eapply grel_bind; [apply get_decisions_same, H|]. intros [t r] [t' r'] (HT & Hr). cbn [fst snd] in *. subst r'.
  eapply grel_bind; [apply grel_refl|]. intros x y <-. cbn. auto.
Qed.

Lemma hidden_vars_same h s s' isdp evs query : same_ve h s s' -> hidden_vars s isdp evs query = hidden_vars s' isdp evs query.
Proof. intros (H1 & H2 & _). unfold hidden_vars. now rewrite H1, H2. Qed.

Lemma degree_same h (l : list (Z * factor nat)) l' v : Forall2 (same_entry h) l l' -> degree l v = degree l' v.
Proof.
  intros H. unfold degree. f_equal. eapply fold_left_related; [|exact H].
  intros acc [k f] [k' g] (_ & (_ & Hv & _)). cbn [snd] in Hv. now rewrite Hv.
Qed.

Lemma hidden_degrees_same h s s' hidden : same_ve h s s' ->
  same_ve h (fst (hidden_degrees sc s hidden)) (fst (hidden_degrees sc s' hidden)) /\
  snd (hidden_degrees sc s hidden) = snd (hidden_degrees sc s' hidden).
Proof.
  intros H. unfold hidden_degrees. pose proof H as (_ & _ & _ & H4 & _). rewrite H4.
  apply (fold_left_state (fun x y => same_ve h (fst x) (fst y) /\ snd x = snd y)); [|split; [now apply same_ve_tick|reflexivity]].
  clear - Hsc. intros [t acc] [t' acc'] [k v] (H & E). cbn [fst snd] in *. subst acc'. same_range H t t'.
  rewrite (degree_same h _ _ _ HE). auto.
Qed.

Lemma sim_remove_hidden b h s s' v : old b h -> same_ve h s s' -> sim b h (h_remove_hidden sc s v) (remove_hidden sc s' v) same_ve.
Proof.
  intros Ho H. unfold h_remove_hidden, remove_hidden. same_range H s s'. clear H. rename s0 into t, s'0 into t'.
  pose proof (filter_vars (fun vs => contains_id vs (v_id v)) h _ _ HE) as HF. cbv beta in HF.
  rewrite (keys_same _ _ _ HF). pose proof HS as (E1 & E2 & E3 & E4 & E5 & E6). rewrite E1, E2.
  eapply sim_bind; [apply sim_at; [exact Ho|apply sim_product, values_same, HF]|].
  intros h1 [v1 f1] [v1' g1] Ho1 (Ho2 & HM). pose proof (made_view _ _ _ _ HM) as V. destruct HM as (E & _). cbn [fst snd] in *. subst v1'.
  eapply sim_bind; [apply sim_at; [exact Ho1|apply sim_sum_out, V]|]. clear V.
  intros h2 [v2 f2] [v2' g2] Ho3 (Ho4 & HM). pose proof (made_view _ _ _ _ HM) as V. destruct HM as (E & _). cbn [fst snd] in *. subst v2'.
  eapply sim_bind; [apply sim_lift, Ho3|]. intros h3 e e' _ (-> & ->).
  apply sim_ret; [exact Ho3|]. assert (old h h2) by (eapply old_trans; eassumption). pose proof V as (Hid & _). rewrite Hid.
  apply same_ve_factors; [apply same_ve_elim, same_ve_vs; eapply same_ve_old; eassumption|].
  apply mset_same; [|exact V]. apply del_all_same. eapply same_entries_old; eassumption.
Qed.

Lemma sim_eliminate_hidden b h s s' evs query single : old b h -> same_ve h s s' ->
  sim b h (h_eliminate_hidden sc s evs query single) (eliminate_hidden sc s' evs query single) same_ve.
Proof.
  intros Ho H. unfold h_eliminate_hidden, eliminate_hidden.
  eapply sim_bind; [apply sim_grel; [exact Ho|apply get_decision_parents_same, H]|].
  intros h1 [t d] [t' d'] _ (-> & HT & Hd). cbn [fst snd] in *. subst d'. rewrite (hidden_vars_same _ _ _ _ _ _ HT).
  eapply sim_bind; [apply sim_lift, Ho|]. intros h1 hid hid' _ (-> & ->).
  pose proof (hidden_degrees_same _ _ _ hid' HT) as (HD & ED).
  destruct (hidden_degrees sc t hid') as [u l], (hidden_degrees sc t' hid') as [u' l']. cbn [fst snd] in *. subst l'.
  apply sim_fold_eq; auto. intros. now apply sim_remove_hidden.
Qed.

(** The factor returned is new, and stays in the solver. *)
Definition same_result (b h : heap) (x : vestate nat * factor nat) (y : vestate A * factor A) : Prop :=
  same_ve h (fst x) (fst y) /\ view h (snd x) (snd y) /\ (List.length b <= addr (f_data (snd x)))%nat.

Lemma old_length (b h : heap) : old b h -> (List.length b <= List.length h)%nat.
Proof. intros [t ->]. rewrite app_length. lia. Qed.

Lemma sim_multiply_all b h s s' : old b h -> same_ve h s s' -> sim b h (h_multiply_all sc s) (multiply_all sc s') (same_result b).
Proof.
  intros Ho H. unfold h_multiply_all, multiply_all. same_range H s s'. clear H. rename s0 into t, s'0 into t'.
  pose proof HS as (E1 & _). rewrite E1.
  eapply sim_bind; [apply sim_at; [exact Ho|apply sim_product, values_same, HE]|].
  intros h1 [v1 f1] [v1' g1] Ho1 (Ho2 & HM). pose proof (made_view _ _ _ _ HM) as V. destruct HM as (E & _ & _ & Ed & _). cbn [fst snd] in *. subst v1'.
  apply sim_ret; [exact Ho1|]. pose proof V as (Hid & _). rewrite Hid. unfold same_result. cbn [fst snd]. split; [|split; [exact V|]].
  - apply (same_ve_factors _ _ _ _ _ (same_ve_vs _ _ _ v1 (same_ve_old _ _ _ _ Ho2 HS))). constructor; [|constructor]. now split.
  - rewrite Ed. cbn. apply old_length, Ho.
Qed.

Lemma sim_ve_solve b h s s' evs query u uv : old b h -> same_ve h s s' ->
  sim b h (h_ve_solve sc s evs query u uv) (ve_solve sc s' evs query u uv) (same_result b).
Proof.
  intros Ho H. unfold h_ve_solve, ve_solve.
  eapply sim_bind; [apply sim_eliminate_evidence; eassumption|]. intros h1 t t' Ho1 H1.
  eapply sim_bind with (R := same_ve).
  - destruct u; [destruct uv as [v|]|].
    + apply sim_ret; auto. now apply remove_utilities_same.
    + now apply sim_sum_utilities.
    + apply sim_ret; auto. now apply remove_utilities_same.
  - intros h2 w w' Ho2 H2. eapply sim_bind; [apply sim_eliminate_hidden; eassumption|]. intros h3 x x' Ho3 H3. now apply sim_multiply_all.
Qed.

(** ** Policies *)
Lemma find_decision_factors_same h s s' dec : same_ve h s s' ->
  same_ve h (fst (find_decision_factors sc s dec)) (fst (find_decision_factors sc s' dec)) /\
  Forall2 (view h) (snd (find_decision_factors sc s dec)) (snd (find_decision_factors sc s' dec)).
Proof.
  intros H. unfold find_decision_factors. pose proof H as (_ & _ & H3 & _). rewrite H3.
  set (deps := match mget var_eqb (ve_deps s') dec with Some d => d | None => [] end). clearbody deps.
  same_range H s s'. clear H. rename s0 into t, s'0 into t'.
  match goal with |- context [map snd (filter ?p entries)] => match goal with |- context [map snd (filter ?q entries')] =>
    assert (HF : Forall2 (view h) (map snd (filter p entries)) (map snd (filter q entries'))) end end.
  { apply values_same. eapply filter_related; [|exact HE]. intros [k f] [k' g] (_ & (_ & Hv & _)). cbn [snd] in Hv. now rewrite Hv. }
  match type of HF with Forall2 _ ?l ?l' => set (r := l) in *; set (r' := l') in * end. clearbody r r'.
  destruct HF as [|f g r r' Hfg HF]; [|cbn [fst snd]; auto].
  same_range HS t t'. cbn [fst snd]. split; auto. apply values_same.
  apply (filter_vars (fun vs => contains_var vs dec && (zlen vs <=? 1)) h _ _ HE0).
Qed.

Definition same_policy (h : heap) (x : variable * (factor nat * factor nat)) (y : variable * (factor A * factor A)) : Prop :=
  fst x = fst y /\ view h (fst (snd x)) (fst (snd y)) /\ view h (snd (snd x)) (snd (snd y)).

Lemma mset_policy h l l' k f g : Forall2 (same_policy h) l l' -> view h (fst f) (fst g) -> view h (snd f) (snd g) ->
  Forall2 (same_policy h) (mset var_eqb l k f) (mset var_eqb l' k g).
Proof.
  intros H V1 V2. induction H as [|[k1 f1] [k2 g1] l l' (E & W1 & W2) H IH]; cbn [mset].
  - constructor; [|constructor]. repeat split; auto; apply V1 || apply V2.
  - cbn [fst snd] in *. subst k2. destruct (var_eqb k k1); constructor; auto; split; auto.
Qed.

Lemma same_policies_old b h l l' : old b h -> Forall2 (same_policy b) l l' -> Forall2 (same_policy h) l l'.
Proof. intros Ho. apply related_impl. intros x y (E & V1 & V2). split; auto. split; eapply view_old; eassumption. Qed.

(** The policies are in new arrays. *)
Definition new_policy (b : heap) (x : variable * (factor nat * factor nat)) : Prop := (List.length b <= addr (f_data (snd (snd x))))%nat.

Lemma mset_new b l k f : Forall (new_policy b) l -> (List.length b <= addr (f_data (snd f)))%nat -> Forall (new_policy b) (mset var_eqb l k f).
Proof.
  intros H Hf. induction H as [|[k1 f1] l H1 H IH]; cbn [mset]; [repeat constructor; exact Hf|].
  destruct (var_eqb k k1); constructor; auto.
Qed.

Lemma sim_solve_policies_loop b h s s' decs single : old b h -> same_ve h s s' ->
  sim b h (h_solve_policies_loop sc s decs single) (solve_policies_loop sc s' decs single)
    (fun h' x y => same_ve h' (fst x) (fst y) /\ Forall2 (same_policy h') (snd x) (snd y) /\ Forall (new_policy b) (snd x)).
Proof.
  intros Ho H. unfold h_solve_policies_loop, solve_policies_loop. apply sim_fold_eq; [|exact Ho|cbn; auto].
  clear - Hsc. intros h [s pols] [s' pols'] dec Ho (HS & HP & HN). cbn [fst snd] in HS, HP, HN.
  pose proof (find_decision_factors_same _ _ _ dec HS) as (HS1 & HF).
  destruct (find_decision_factors sc s dec) as [t fs], (find_decision_factors sc s' dec) as [t' gs]. cbn [fst snd] in *.
  destruct HF as [|f1 g1 fs gs V1 HF]; [now apply sim_fail_p|].
  eapply sim_bind with (R := fun h' x y => old h h' /\ fst x = fst y /\ view h' (snd x) (snd y)).
  - pose proof HS1 as (E1 & _). destruct HF as [|f2 g2 fs gs V2 HF].
    + apply sim_ret; auto. split; [apply old_refl|]. cbn [fst snd]. auto.
    + rewrite E1. eapply sim_mono; [exact Ho| |apply sim_product; constructor; auto].
      cbv beta. intros h' x y Ho' HM. split; auto. split; [apply HM|eapply made_view; eassumption].
  - intros h1 [v1 f] [v1' g] Ho1 (Hh & Ev & V). cbn [fst snd] in *. subst v1'.
    eapply sim_bind; [apply sim_at; [exact Ho1|apply sim_policy, V]|].
    intros h2 [v2 p] [v2' q] Ho2 (Ho3 & HM). pose proof (made_view _ _ _ _ HM) as V2. destruct HM as (E & Hid & _ & Ed & _). cbn [fst snd] in *. subst v2'.
    assert (old h h2) by (eapply old_trans; eassumption).
    eapply sim_bind; [apply sim_lift, Ho2|]. intros h3 v3 v3' _ (-> & ->).
    rewrite Hid.
    eapply sim_bind; [apply sim_at; [exact Ho2|apply sim_eliminate_hidden; [apply old_refl|]]|].
    + apply same_ve_vs, same_ve_factors; [eapply same_ve_old; eassumption|].
      apply mset_same; [|exact V2]. eapply same_entries_old; [eassumption|apply HS1].
    + intros h4 w w' Ho4 (Ho5 & HW). apply sim_ret; [exact Ho4|]. cbn [fst snd]. split; auto.
      assert (old h h4) by (eapply old_trans; [|exact Ho5]; assumption).
      split; [apply mset_policy; cbn [fst snd]|apply mset_new; [exact HN|cbn [fst snd]; rewrite Ed; cbn; apply old_length, Ho1]].
      * eapply same_policies_old; eassumption.
      * eapply view_old; [|exact V]. eapply old_trans; [exact Ho3|exact Ho5].
      * eapply view_old; [exact Ho5|exact V2].
Qed.

Definition same_policies (b h : heap) (x : option (list (variable * (factor nat * factor nat)))) (y : option (list (variable * (factor A * factor A)))) : Prop :=
  match x, y with
  | Some l, Some l' => Forall2 (same_policy h) l l' /\ Forall (new_policy b) l
  | None, None => True
  | _, _ => False
  end.

Lemma sim_ve_solve_policies b h s s' single : old b h -> same_ve h s s' ->
  sim b h (h_ve_solve_policies sc s single) (ve_solve_policies sc s' single)
    (fun h' x y => same_ve h' (fst x) (fst y) /\ same_policies b h' (snd x) (snd y)).
Proof.
  intros Ho H. unfold h_ve_solve_policies, ve_solve_policies.
  eapply sim_bind; [apply sim_grel; [exact Ho|apply get_decisions_same, H]|].
  intros h1 [t d] [t' d'] _ (-> & HT & Hd). cbn [fst snd] in *. subst d'.
  destruct d as [|d0 d]; [apply sim_ret; cbn; auto|].
  eapply sim_bind; [apply sim_sum_utilities; eassumption|]. intros h1 t1 t1' Ho1 H1.
  eapply sim_bind; [apply sim_eliminate_hidden; eassumption|]. intros h2 t2 t2' Ho2 H2.
  eapply sim_bind; [apply sim_solve_policies_loop; eassumption|]. intros h3 [t3 l] [t3' l'] Ho3 (H3 & HL).
  apply sim_ret; [exact Ho3|]. cbn [fst snd] in *. auto.
Qed.

End HeapVE.
