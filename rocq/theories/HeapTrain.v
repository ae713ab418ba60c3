(** Training with arrays in memory does what TrainModel says, if no two factors share a table.
    It writes only to the tables of the network. *)
From Coq Require Import ZArith List Bool String Lia.
From Verif Require Import Num GoBase GoFacts VarModel VEModel NetModel TrainModel TrainFacts HeapVarModel HeapSim HeapVar HeapVEModel HeapVE HeapNetModel SpecHeap HeapNet.
Import ListNotations.
Open Scope string_scope.
Open Scope list_scope.
Open Scope Z_scope.

Section HeapTrain.
Context {A : Type} {N : NumOps A}.
Notation heap := (heap A).

(** Only arrays in [w] change, and none appears. *)
Definition writes (w : list nat) (h h' : heap) : Prop :=
  List.length h' = List.length h /\ forall a, ~ In a w -> nth_error h' a = nth_error h a.
Lemma writes_refl w h : writes w h h.
Proof. split; auto. Qed.
Lemma writes_trans w h1 h2 h3 : writes w h1 h2 -> writes w h2 h3 -> writes w h1 h3.
Proof. intros (L1 & H1) (L2 & H2). split; [congruence|]. intros a Ha. now rewrite H2, H1. Qed.
Lemma writes_upd w (h : heap) a t : In a w -> writes w h (upd_nth h a t).
Proof. intros Ha. split; [apply upd_nth_length|]. intros b Hb. apply upd_nth_other. intros ->. auto. Qed.

Lemma upd_same (h : heap) a d : nth_error h a = Some d -> upd_nth h a d = h.
Proof. revert a. induction h as [|x h IH]; intros [|a]; cbn; intros E; try congruence. now rewrite IH. Qed.

Lemma upd_read (h : heap) a d t : nth_error h a = Some d -> nth_error (upd_nth h a t) a = Some t.
Proof. intros E. apply upd_nth_same. apply nth_error_Some. congruence. Qed.

(** ** One table *)
(** A loop that writes to array [a] of heap [h], and the same loop with the table as a value *)
Definition loop_sim (a : nat) (h : heap) (m : heap * gores unit) (r : gores (list A)) : Prop :=
  match snd m, r with
  | Ok _, Ok t => fst m = upd_nth h a t
  | Panic p, Panic p' => p = p' /\ exists t, fst m = upd_nth h a t
  | _, _ => False
  end.

Lemma sget_cases {X} (l : list X) i : sget l i = Panic PIndex \/ exists x, sget l i = Ok x.
Proof. unfold sget. destruct (i <? 0); auto. destruct (nth_error l (Z.to_nat i)); eauto. Qed.

Lemma loop_panic a (h : heap) t p : loop_sim a h (upd_nth h a t, Panic p) (Panic p).
Proof. unfold loop_sim. cbn [fst snd]. eauto. Qed.

Lemma element_sim (data : list (list A)) j cols cnt a k (h : heap) t0 t : nth_error h a = Some t0 ->
  loop_sim a h ((do! row := lift (sget data j) in
         do! x := lift (sget row k) in
         put_elem a (j * cols + k) (ndiv x (nofint cnt))) (upd_nth h a t))
    (let! row := sget data j in
     let! x := sget row k in
     sset t (j * cols + k) (ndiv x (nofint cnt))).
Proof.
  intros E. unfold bind, lift. destruct (sget_cases data j) as [->|(row & ->)]; [apply loop_panic|]. cbn [gbind].
  destruct (sget_cases row k) as [->|(x & ->)]; [apply loop_panic|]. cbn [gbind].
  unfold put_elem, bind, load, lift. rewrite (upd_read _ _ _ _ E). unfold sset.
  destruct ((j * cols + k <? 0) || (zlen t <=? j * cols + k)); [apply loop_panic|]. unfold loop_sim. cbn [fst snd]. apply upd_nth_twice.
Qed.

Lemma row_loop (data : list (list A)) j cols cnt a l : forall (h : heap) t0 t, nth_error h a = Some t0 ->
  loop_sim a h (foldA (fun _ k =>
         do! row := lift (sget data j) in
         do! x := lift (sget row k) in
         put_elem a (j * cols + k) (ndiv x (nofint cnt))) tt l (upd_nth h a t))
    (foldM (fun table k =>
         let! row := sget data j in
         let! x := sget row k in
         sset table (j * cols + k) (ndiv x (nofint cnt))) t l).
Proof.
  induction l as [|k l IH]; intros h t0 t E; cbn [foldA foldM]; [reflexivity|].
  unfold bind at 1. pose proof (element_sim data j cols cnt a k h t0 t E) as HS. unfold loop_sim in HS.
  destruct (bind _ _ (upd_nth h a t)) as [h' [u|e|p]]; destruct (gbind (sget data j) _) as [t'|e'|p']; cbn [fst snd] in HS; try tauto; cbn [gbind].
  - subst h'. destruct u. now apply (IH h t0).
  - exact HS.
Qed.

Lemma update_row_sim data counter cols a j (h : heap) t : nth_error h a = Some t ->
  match h_update_row data counter cols a j h, update_row data counter cols t j with
  | (h', Ok _), Ok t' => h' = upd_nth h a t'
  | (h', Err e), Err e' => e = e' /\ h' = h
  | (h', Panic p), Panic p' => p = p' /\ exists t', h' = upd_nth h a t'
  | _, _ => False
  end.
Proof.
  intros E. unfold h_update_row, update_row. unfold bind at 1. unfold lift at 1.
  assert (P : forall p : gopanic, p = p /\ exists t', h = upd_nth h a t') by (intros p; split; [reflexivity|exists t; symmetry; now apply upd_same]).
  destruct (sget_cases counter j) as [->|(cnt & ->)]; [apply (P PIndex)|]. cbn [gbind].
  destruct (cnt =? 0); [cbn; auto|].
  pose proof (row_loop data j cols cnt a (zrange 0 cols) h t t E) as HL. rewrite (upd_same _ _ _ E) in HL. unfold loop_sim in HL.
  match goal with |- match ?m with _ => _ end => destruct m as [h' [u|e|p]] end; cbn [fst snd] in HL.
  - destruct (foldM _ t _); try tauto.
  - destruct (foldM _ t _); tauto.
  - destruct (foldM _ t _); try tauto.
Qed.

Lemma rows_sim data counter cols a l : forall (h : heap) t, nth_error h a = Some t ->
  match foldA (fun _ j => h_update_row data counter cols a j) tt l h,
        run_steps (fun table j => match update_row data counter cols table j with Ok table' => (table', Ok tt) | bad => (table, no_value bad) end) t l with
  | (h', Ok _), (t', Ok _) => h' = upd_nth h a t'
  | (h', Err e), (t', Err e') => e = e' /\ h' = upd_nth h a t'
  | (h', Panic p), (_, Panic p') => p = p' /\ exists t', h' = upd_nth h a t'
  | _, _ => False
  end.
Proof.
  induction l as [|j l IH]; intros h t E; cbn [foldA run_steps]; [symmetry; now apply upd_same|].
  pose proof (update_row_sim data counter cols a j h t E) as HR. unfold bind.
  destruct (h_update_row data counter cols a j h) as [h' [u|e|p]], (update_row data counter cols t j) as [t'|e'|p']; try tauto; cbn [no_value].
  - subst h'. destruct u. specialize (IH (upd_nth h a t') t' (upd_read _ _ _ t' E)).
    destruct (foldA _ tt l (upd_nth h a t')) as [h' [v|e|p]], (run_steps _ t' l) as [t2 [w|e'|p']]; try tauto.
    + now rewrite upd_nth_twice in IH.
    + now rewrite upd_nth_twice in IH.
    + destruct IH as (Ep & t3 & IH). split; auto. exists t3. now rewrite upd_nth_twice in IH.
  - destruct HR as (-> & ->). split; auto. symmetry. now apply upd_same.
  - exact HR.
Qed.

(** ** All tables *)
Definition same_tables (h : heap) (l : list (nfactor nat)) (l' : list (nfactor A)) : Prop := Forall2 (same_nfactor h) l l'.

Lemma table_in l k f r : nth_error l k = Some f -> nf_table f = Some r -> In (addr r) (flat_map table_array l).
Proof. intros E T. apply in_flat_map. exists f. split; [eapply nth_error_In, E|]. unfold table_array. rewrite T. now left. Qed.

Lemma others_same h l l' a t : same_tables h l l' -> ~ In a (flat_map table_array l) -> same_tables (upd_nth h a t) l l'.
Proof.
  intros H. induction H as [|f g l l' Hfg H IH]; cbn [flat_map]; intros Hn; [constructor|]. rewrite in_app_iff in Hn. constructor; [|apply IH; tauto].
  destruct Hfg as (H1 & H2 & H3 & H4 & H5). repeat split; auto. unfold same_slice in *. unfold table_array in Hn.
  destruct (nf_table f) as [r|], (nf_table g) as [w|]; auto. destruct H5 as (b & -> & Eb). exists b. split; auto.
  rewrite upd_nth_other; auto. cbn in Hn. intros ->. tauto.
Qed.

Lemma nodup_app_r {X} (l l' : list X) : NoDup (l ++ l') -> NoDup l'.
Proof. induction l as [|x l IH]; cbn; auto. intros H. inversion H; auto. Qed.

Lemma table_written l l' : forall h k f g a t, same_tables h l l' -> NoDup (flat_map table_array l) ->
  nth_error l k = Some f -> nth_error l' k = Some g -> nf_table f = Some (ref a) ->
  same_tables (upd_nth h a t) l (upd_nth l' k (mkNFactor (nf_for g) (nf_given g) (Some t) (nf_outcomes g) (nf_columns g))).
Proof.
  intros h k f g a t H. revert k. induction H as [|f1 g1 l l' Hfg H IH]; intros [|k] ND Ef Eg ET; cbn in Ef, Eg; try discriminate.
  - injection Ef as ->. injection Eg as ->. cbn [upd_nth flat_map] in *. unfold table_array in ND at 1. rewrite ET in ND. inversion ND; subst. constructor; [|apply others_same; auto].
    destruct Hfg as (H1' & H2' & H3' & H4' & H5). repeat split; auto. cbn [nf_table]. rewrite ET in *. exists a. split; auto.
    unfold same_slice in H5. destruct (nf_table g); [|tauto]. destruct H5 as (b & Eb & Hb). injection Eb as <-. eapply upd_read, Hb.
  - cbn [upd_nth flat_map] in *. constructor; [|apply IH; auto; exact (nodup_app_r _ _ ND)].
    assert (HO : same_tables (upd_nth h a t) [f1] [g1]); [|now inversion HO].
    apply others_same; [constructor; [exact Hfg|constructor]|]. cbn [flat_map]. rewrite app_nil_r. intros Ha.
    assert (HI : In a (flat_map table_array l)). { replace a with (addr (ref a)) by reflexivity. eapply table_in; eassumption. }
    clear - ND Ha HI. induction (table_array f1) as [|x q IHq]; [destruct Ha|]. inversion ND; subst. destruct Ha as [->|Ha]; [|auto]. apply H1, in_app_iff. now right.
Qed.

(** The state of the tables after a step: as in the value model, unless the step panicked *)
Definition node_sim (n : network nat) (h : heap) (m : heap * gores unit) (p : list (nfactor A) * gores unit) : Prop :=
  writes (table_arrays n) h (fst m) /\
  match snd m, snd p with
  | Ok _, Ok _ => same_tables (fst m) (n_factors n) (fst p)
  | Err e, Err e' => e = e' /\ same_tables (fst m) (n_factors n) (fst p)
  | Panic q, Panic q' => q = q'
  | _, _ => False
  end.

Lemma update_node_sim t (n : network nat) h fs iv : NoDup (table_arrays n) -> same_tables h (n_factors n) fs ->
  node_sim n h (h_update_node t n iv h) (update_node t fs iv).
Proof.
  intros ND HT. destruct iv as [i v]. unfold h_update_node, update_node, node_factor. unfold bind at 1. unfold lift at 1.
  assert (P : forall p, node_sim n h (h, Panic p) (fs, Panic p)) by (intros p; split; [apply writes_refl|reflexivity]).
  destruct (nv_factor v) as [k|]; [|apply P].
  assert (HK : match nth_error (n_factors n) k, nth_error fs k with Some f, Some g => same_nfactor h f g | None, None => True | _, _ => False end).
  { clear - HT. revert k. unfold same_tables in HT. revert HT. generalize (n_factors n). intros l0 HT. induction HT as [|f g l l' Hfg _ IH]; intros [|k]; cbn; try exact I; try reflexivity; try assumption; apply IH. }
  destruct (nth_error (n_factors n) k) as [f|] eqn:Ef, (nth_error fs k) as [g|] eqn:Eg; try tauto; [|apply P].
  unfold bind at 1 2. unfold lift at 1 2. unfold sget.
  destruct (i <? 0); [apply P|]. destruct (nth_error (tr_data t) (Z.to_nat i)) as [data|]; [|apply P].
  destruct (nth_error (tr_counter t) (Z.to_nat i)) as [counter|]; [|apply P].
  pose proof HK as (_ & _ & _ & Ec & HS). rewrite Ec. destruct (nf_columns g =? 0); [apply P|].
  unfold same_slice in HS. destruct (nf_table f) as [r|] eqn:ETf, (nf_table g) as [w|] eqn:ETg; try tauto; [|split; [apply writes_refl|exact HT]].
  destruct HS as (a & -> & Ea). unfold bind at 1. unfold addr, ref at 1. cbn [hd]. rewrite (len_ok _ _ _ Ea).
  pose proof (rows_sim data counter (nf_columns g) a (zrange 0 (Z.quot (zlen w) (nf_columns g))) h w Ea) as HR.
  unfold ref. cbn [hd].
  assert (HI : In a (table_arrays n)). { replace a with (addr (ref a)) by reflexivity. eapply table_in; eassumption. }
  destruct (foldA _ tt _ h) as [h' [u|e|p]], (run_steps _ w _) as [w' [u'|e'|p']]; try tauto.
  - subst h'. split; [now apply writes_upd|]. cbn [fst snd]. eapply table_written; eassumption.
  - destruct HR as (-> & ->). split; [now apply writes_upd|]. cbn [fst snd]. split; auto. eapply table_written; eassumption.
  - destruct HR as (-> & t' & ->). split; [now apply writes_upd|reflexivity].
Qed.

Lemma update_nodes_sim t (n : network nat) l : NoDup (table_arrays n) -> forall h fs, same_tables h (n_factors n) fs ->
  node_sim n h (foldA (fun _ iv => h_update_node t n iv) tt l h) (run_steps (update_node t) fs l).
Proof.
  intros ND. induction l as [|iv l IH]; intros h fs HT; cbn [foldA run_steps]; [split; [apply writes_refl|exact HT]|].
  pose proof (update_node_sim t n h fs iv ND HT) as (HW & HN). unfold bind.
  destruct (h_update_node t n iv h) as [h' [u|e|p]], (update_node t fs iv) as [fs' [u'|e'|p']]; cbn [fst snd] in *; try tauto.
  - destruct u. destruct (IH h' fs' HN) as (HW' & HN'). split; [eapply writes_trans; eassumption|exact HN'].
  - split; [exact HW|exact HN].
  - split; [exact HW|exact HN].
Qed.

(** ** The trainer *)
Lemma node_factor_same h (n : network nat) (n' : network A) v : same_net h n n' -> grel (same_nfactor h) (node_factor n v) (node_factor n' v).
Proof.
  intros (_ & _ & _ & _ & _ & _ & H7 & _). unfold node_factor. destruct (nv_factor v) as [k|]; [|reflexivity].
  revert k. induction H7 as [|f g l l' Hfg _ IH]; intros [|k]; cbn; try exact I; try reflexivity; try assumption; apply IH.
Qed.

Lemma mapM_grel {X Y Z} (R : Y -> Z -> Prop) (f : X -> gores Y) (g : X -> gores Z) l :
  (forall x, grel R (f x) (g x)) -> grel (Forall2 R) (mapM f l) (mapM g l).
Proof.
  intros E. induction l as [|x l IH]; cbn [mapM]; [constructor|]. eapply grel_bind; [apply E|]. intros y z Hyz.
  eapply grel_bind; [apply IH|]. intros ys zs H. cbn. auto.
Qed.

Lemma sim_trainer_node h n n' names v : same_net h n n' ->
  sim h h (h_trainer_node n names v) (trainer_node n' names v) (fun h' x y => h' = h /\ x = y).
Proof.
  intros Hn. unfold h_trainer_node, trainer_node.
  eapply sim_bind; [apply sim_grel; [apply old_refl|eapply node_factor_same, Hn]|].
  intros h1 f g _ (-> & (_ & Eg & _ & _ & HS)). destruct (zlen (nv_outcomes v) =? 0); [now apply sim_fail_p, old_refl|].
  rewrite Eg. unfold same_slice in HS.
  assert (EL : match nf_table f with None => ret 0 | Some t => len_at (addr t) end h = (h, Ok (zlen (slice_of (nf_table g))))).
  { destruct (nf_table f) as [r|], (nf_table g) as [w|]; try tauto; try reflexivity. destruct HS as (a & -> & Ea). now apply len_ok. }
  eapply sim_left; [exact EL|].
  eapply sim_bind; [apply sim_lift, old_refl|]. intros h1 d d' _ (-> & ->).
  eapply sim_bind; [apply sim_lift, old_refl|]. intros h1 c c' _ (-> & ->).
  eapply sim_bind; [apply sim_lift, old_refl|]. intros h1 x x' _ (-> & ->).
  apply sim_ret; [apply old_refl|auto].
Qed.

Lemma sim_new_trainer h n n' : same_net h n n' -> sim h h (h_new_trainer n) (new_trainer n') (fun h' x y => h' = h /\ x = y).
Proof.
  intros Hn. pose proof Hn as (_ & _ & E3 & _). unfold h_new_trainer, new_trainer. rewrite E3.
  eapply sim_bind; [apply sim_grel; [apply old_refl|apply mapM_grel; intros v; eapply node_factor_same, Hn]|].
  intros h1 x y _ (-> & _).
  eapply sim_bind; [apply sim_mapA with (g := trainer_node n' (node_indices (n_vars n'))); [apply old_refl|]; intros v; now apply sim_trainer_node|].
  intros h1 l l' _ (-> & ->). apply sim_ret; [apply old_refl|auto].
Qed.

(** Computations that only read *)
Definition reads {X} (m : act A X) : Prop := forall h, fst (m h) = h.
Lemma reads_bind {X Y} (m : act A X) (k : X -> act A Y) : reads m -> (forall x, reads (k x)) -> reads (bind m k).
Proof. intros Hm Hk h. unfold bind. specialize (Hm h). destruct (m h) as [h' [x|e|p]]; cbn in *; subst h'; auto. apply Hk. Qed.
Lemma reads_lift {X} (r : gores X) : reads (lift r).
Proof. now intros h. Qed.
Lemma reads_ret {X} (x : X) : reads (ret x).
Proof. now intros h. Qed.
Lemma reads_len a : reads (len_at a).
Proof. apply reads_bind; [now intros h|]. intros d. apply reads_ret. Qed.
Lemma reads_mapA {X Y} (f : X -> act A Y) l : (forall x, reads (f x)) -> reads (mapA f l).
Proof. intros Hf. induction l as [|x l IH]; cbn [mapA]; [apply reads_ret|]. apply reads_bind; auto. intros y. apply reads_bind; auto. intros ys. apply reads_ret. Qed.

Lemma new_trainer_reads n : reads (h_new_trainer n).
Proof.
  unfold h_new_trainer. apply reads_bind; [apply reads_lift|]. intros _. apply reads_bind; [|intros l; apply reads_ret].
  apply reads_mapA. intros v. unfold h_trainer_node. apply reads_bind; [apply reads_lift|]. intros f. destruct (_ =? 0); [apply reads_lift|].
  apply reads_bind; [destruct (nf_table f); [apply reads_len|apply reads_ret]|]. intros len.
  apply reads_bind; [apply reads_lift|]. intros d. apply reads_bind; [apply reads_lift|]. intros c.
  apply reads_bind; [apply reads_lift|]. intros x. apply reads_ret.
Qed.

Lemma add_sample_same h n n' t s u : same_net h n n' -> h_add_sample n t s u = add_sample n' t s u.
Proof.
  intros Hn. pose proof Hn as (_ & _ & E3 & _). unfold h_add_sample, add_sample. cbn [n_vars without_tables]. rewrite E3. apply foldM_same.
  intros t1 [i v]. unfold add_node_sample. destruct (nodeType_eqb (nv_type v) Decision); [reflexivity|].
  destruct (sget (tr_indices t1) i) as [ind|e|p]; cbn [gbind]; auto. destruct (mapM (sget s) ind) as [smp|e|p]; cbn [gbind]; auto.
  destruct (match u with None => _ | Some u => _ end) as [uu|e|p]; cbn [gbind]; auto.
  assert (G : grel (fun f g : nfactor A => nf_outcomes f = nf_outcomes g) (node_factor (without_tables n) v) (node_factor n' v)).
  { pose proof Hn as (_ & _ & _ & _ & _ & _ & H7 & _). unfold node_factor. destruct (nv_factor v) as [k|]; [|reflexivity]. cbn [n_factors without_tables].
    clear - H7. revert k. induction H7 as [|f g l l' (_ & _ & Ho & _) _ IH]; intros [|k]; cbn; try exact I; try reflexivity; try assumption; apply IH. }
  destruct (node_factor (without_tables n) v) as [f|e|p], (node_factor n' v) as [g|e'|p']; cbn in G; try tauto; try (subst; reflexivity). cbn [gbind].
  unfold nf_row_index. now rewrite G.
Qed.

Definition with_factors_of (n : network A) (fs : list (nfactor A)) : network A :=
  mkNet (n_name n) (n_info n) (n_vars n) fs (n_policies n) (n_ve n) (n_names n) (n_tui n).

(** Training: what it does to the arrays, and to the network, unless it panics *)
Lemma train_sim h n n' samples : same_net h n n' -> NoDup (table_arrays n) ->
  (forall a, In a (policy_arrays n) -> ~ In a (table_arrays n)) ->
  writes (table_arrays n) h (fst (h_train n samples h)) /\
  match snd (h_train n samples h), train n' samples with
  | Ok _, (m, Ok _) => same_net (fst (h_train n samples h)) n m
  | Err e, (m, Err e') => e = e' /\ same_net (fst (h_train n samples h)) n m
  | Panic p, (_, Panic p') => p = p'
  | _, _ => False
  end.
Proof.
  intros Hn ND HD. unfold h_train, train, bind, lift. pose proof (sim_new_trainer h n n' Hn) as HT. unfold sim in HT.
  pose proof (new_trainer_reads n h) as HX. destruct (h_new_trainer n h) as [h1 r]. cbn [fst] in HX. subst h1. destruct HT as (_ & HT).
  destruct r as [t|e|p], (new_trainer n') as [t'|e'|p']; try tauto; cbn [gbind].
  - destruct HT as (_ & ->).
    rewrite (foldM_same (fun t '((s, u) : list Z * option (list A)) => h_add_sample n t s u) (fun t '((s, u) : list Z * option (list A)) => add_sample n' t s u))
      by (intros t [s u]; eapply add_sample_same, Hn).
    destruct (foldM _ t' samples) as [t2|e|p].
    + unfold h_update_network, update_network. pose proof Hn as (H1 & H2 & E3 & H4 & H5 & H6 & H7 & H8). rewrite E3.
      pose proof (update_nodes_sim t2 n (combine (zrange 0 (zlen (n_vars n'))) (n_vars n')) ND h (n_factors n') H7) as (HW & HN).
      destruct (foldA _ tt _ h) as [h2 r2], (run_steps _ (n_factors n') _) as [fs r2']. cbn [fst snd] in *. split; [exact HW|].
      assert (HS : same_tables h2 (n_factors n) fs -> same_net h2 n (with_factors_of n' fs)).
      { intros HS. repeat split; auto. cbn [n_policies with_factors_of].
        eapply (related_impl (fun x y => same_entry h x y /\ In x (n_policies n))).
        - intros x y ((E & V1 & V2 & a & Ea & Ed) & Hx). repeat split; auto. exists a. split; auto.
          rewrite (proj2 HW); auto. apply HD. unfold policy_arrays. apply in_map_iff. exists x. split; auto. now rewrite Ea.
        - clear - H8. induction H8 as [|x y l l' Hxy _ IH]; constructor; [split; [auto|now left]|].
          eapply related_impl; [|exact IH]. intros u v (Huv & Hi). split; auto. now right. }
      destruct r2 as [u|e|p], r2' as [u'|e'|p']; tauto.
    + cbn. split; [apply writes_refl|auto].
    + cbn. split; [apply writes_refl|auto].
  - cbn. subst e'. split; [apply writes_refl|auto].
  - cbn. subst p'. split; [apply writes_refl|auto].
Qed.

End HeapTrain.
