(** Programs that use a network, with arrays in memory: what they see is what the value model
    says, whatever they write to their own arrays. *)
From Coq Require Import ZArith List Bool String Lia.
From Verif Require Import Num GoBase GoFacts VarModel VEModel NetModel TrainModel HeapVarModel HeapSim HeapVar HeapVEModel HeapVE HeapNetModel SpecHeap HeapNet HeapTrain.
Import ListNotations.
Open Scope string_scope.
Open Scope list_scope.
Open Scope Z_scope.

Section Session.
Context {A : Type} {N : NumOps A}.
Notation heap := (heap A).
Implicit Types (h b : heap) (v : network A) (n : network nat).

(** ** Reading *)
Lemma read_factor_view (h : heap) f g : read_factor h f = Some g -> view h f g.
Proof.
  unfold read_factor, read_slice. destruct f as [i vs [|a [|b q]]]; cbn; try discriminate. destruct (nth_error h a) as [d|] eqn:E; [|discriminate].
  intros H. injection H as <-. repeat split; auto. exists a. auto.
Qed.
Lemma view_read_factor (h : heap) f g : view h f g -> read_factor h f = Some g.
Proof.
  intros (Ei & Ev & a & Ea & Ed). unfold read_factor, read_slice. rewrite Ea. cbn. rewrite Ed. destruct g; cbn in *. now subst.
Qed.
Lemma read_nfactor_same (h : heap) f g : read_nfactor h f = Some g -> same_nfactor h f g.
Proof.
  unfold read_nfactor, same_nfactor, same_slice. destruct (nf_table f) as [r|]; [|intros H; injection H as <-; cbn; auto 10].
  unfold read_slice. destruct r as [|a [|b q]]; try discriminate. destruct (nth_error h a) as [d|] eqn:E; [|discriminate].
  intros H. injection H as <-. cbn. repeat split; auto. exists a. auto.
Qed.
Lemma same_read_nfactor (h : heap) f g : same_nfactor h f g -> read_nfactor h f = Some g.
Proof.
  intros (H1 & H2 & H3 & H4 & H5). unfold read_nfactor, same_slice in *. destruct g as [f1 f2 [w|] f3 f4], (nf_table f) as [r|]; cbn in *; try tauto; [|now subst].
  destruct H5 as (a & -> & Ea). cbn. rewrite Ea. now subst.
Qed.
Lemma read_all_related {X Y} (rd : X -> option Y) l l' : read_all rd l = Some l' -> Forall2 (fun x y => rd x = Some y) l l'.
Proof.
  revert l'. induction l as [|x l IH]; cbn; intros l' H; [injection H as <-; constructor|].
  destruct (rd x) as [y|] eqn:E; [|discriminate]. destruct (read_all rd l) as [ys|]; [|discriminate]. injection H as <-. constructor; auto.
Qed.
Lemma related_read_all {X Y} (rd : X -> option Y) l l' : Forall2 (fun x y => rd x = Some y) l l' -> read_all rd l = Some l'.
Proof. induction 1 as [|x y l l' E _ IH]; cbn; [reflexivity|]. now rewrite E, IH. Qed.

(** ** The arrays of a network *)
Lemma tables_arrays h n v : same_net h n v -> tables n = table_arrays n.
Proof.
  intros (_ & _ & _ & _ & _ & _ & H7 & _). unfold tables, table_arrays. induction H7 as [|f g l l' (_ & _ & _ & _ & HS) _ IH]; cbn [flat_map]; [reflexivity|]. rewrite IH. f_equal.
  unfold table_of, table_array, same_slice in *. destruct (nf_table f) as [r|], (nf_table g) as [w|]; try tauto. destruct HS as (a & -> & _). reflexivity.
Qed.
Lemma policies_arrays h n v : same_net h n v -> policies n = policy_arrays n.
Proof.
  intros (_ & _ & _ & _ & _ & _ & _ & H8). unfold policies, policy_arrays. induction H8 as [|f g l l' (_ & _ & _ & a & Ea & _) _ IH]; cbn [flat_map map]; [reflexivity|]. rewrite IH, Ea. reflexivity.
Qed.
Lemma table_bound h n v a : same_net h n v -> In a (table_arrays n) -> (a < List.length h)%nat.
Proof.
  intros (_ & _ & _ & _ & _ & _ & H7 & _). unfold table_arrays. induction H7 as [|f g l l' (_ & _ & _ & _ & HS) _ IH]; cbn [flat_map]; [intros []|].
  intros H. apply in_app_iff in H. destruct H as [H|H]; auto. unfold table_array, same_slice in *. destruct (nf_table f) as [r|]; [|destruct H].
  destruct (nf_table g) as [w|]; [|tauto]. destruct HS as (b & -> & Eb), H as [<-|[]]. cbn. apply nth_error_Some. congruence.
Qed.
Lemma policy_bound h n v a : same_net h n v -> In a (policy_arrays n) -> (a < List.length h)%nat.
Proof.
  intros (_ & _ & _ & _ & _ & _ & _ & H8). unfold policy_arrays. induction H8 as [|f g l l' (_ & _ & _ & b & Eb & Ed) _ IH]; cbn [map]; [intros []|].
  intros [<-|H]; auto. rewrite Eb. cbn. apply nth_error_Some. congruence.
Qed.

(** Writing to other arrays, or making one, does not change a network. *)
Lemma same_net_write h n v a d : same_net h n v -> ~ In a (table_arrays n) -> ~ In a (policy_arrays n) -> same_net (upd_nth h a d) n v.
Proof.
  intros (H1 & H2 & H3 & H4 & H5 & H6 & H7 & H8) HT HP. repeat split; auto; [now apply others_same|]. clear - H8 HP. unfold policy_arrays in HP.
  induction H8 as [|f g l l' (E & Ei & Ev & b & Eb & Ed) _ IH]; cbn [map] in HP; constructor; [|apply IH; intros H; apply HP; now right].
  repeat split; auto. exists b. split; auto. rewrite upd_nth_other; auto. intros ->. apply HP. left. now rewrite Eb.
Qed.

Lemma same_net_other (h h' : heap) n v : same_net h n v -> (forall a, In a (table_arrays n) \/ In a (policy_arrays n) -> nth_error h' a = nth_error h a) -> same_net h' n v.
Proof.
  intros (H1 & H2 & H3 & H4 & H5 & H6 & H7 & H8) HE. repeat split; auto.
  - assert (HT : forall a, In a (table_arrays n) -> nth_error h' a = nth_error h a) by auto. clear - H7 HT. unfold table_arrays in HT.
    induction H7 as [|f g l l' (E1 & E2 & E3 & E4 & HS) _ IH]; cbn [flat_map] in HT; constructor; [|apply IH; intros a Ha; apply HT, in_app_iff; now right].
    repeat split; auto. unfold same_slice in *. destruct (nf_table f) as [r|] eqn:Er, (nf_table g) as [w|]; auto. destruct HS as (a & -> & Ea).
    exists a. split; [reflexivity|]. rewrite HT; [exact Ea|]. apply in_app_iff. left. unfold table_array. rewrite Er. now left.
  - assert (HT : forall a, In a (policy_arrays n) -> nth_error h' a = nth_error h a) by auto. clear - H8 HT. unfold policy_arrays in HT.
    induction H8 as [|f g l l' (E & Ei & Ev & b & Eb & Ed) _ IH]; cbn [map] in HT; constructor; [|apply IH; intros a Ha; apply HT; now right].
    repeat split; auto. exists b. split; auto. rewrite HT; [exact Ed|]. left. now rewrite Eb.
Qed.

(** ** New *)
Lemma index_same {X Y} (R : X -> Y -> Prop) p q l l' : (forall x y, R x y -> p x = q y) -> Forall2 R l l' -> index_func p l = index_func q l'.
Proof.
  intros E H. unfold index_func. generalize 0. induction H as [|x y l l' Hxy _ IH]; intros i; cbn [index_func_from]; [reflexivity|].
  rewrite (E _ _ Hxy). destruct (q y); auto.
Qed.

Lemma sset_same {X Y} (R : X -> Y -> Prop) l l' i x y : Forall2 R l l' -> R x y -> grel (Forall2 R) (sset l i x) (sset l' i y).
Proof.
  intros H Hxy. unfold sset. assert (E : zlen l = zlen l') by (unfold zlen; f_equal; induction H; cbn; auto). rewrite E.
  destruct (_ || _); [reflexivity|]. cbn. generalize (Z.to_nat i). clear E. induction H as [|a c l l' Hac H IH]; intros [|k]; cbn; auto.
Qed.

Lemma foldM_grel {S T X} (P : S -> T -> Prop) (f : S -> X -> gores S) (g : T -> X -> gores T) l :
  (forall s t x, P s t -> grel P (f s x) (g t x)) -> forall s t, P s t -> grel P (foldM f s l) (foldM g t l).
Proof.
  intros E. induction l as [|x l IH]; intros s t H; cbn [foldM]; [exact H|]. eapply grel_bind; [now apply E|]. intros s' t' H'. now apply IH.
Qed.

Lemma link_factor_same h names fs gs w : Forall2 (same_nfactor h) fs gs ->
  grel (fun x y => Forall2 (same_nfactor h) (fst x) (fst y) /\ snd x = snd y) (link_factor names fs w) (link_factor names gs w).
Proof.
  intros H. unfold link_factor.
  rewrite (index_same (same_nfactor h) (fun f => String.eqb (nf_for f) (nv_name w)) (fun f => String.eqb (nf_for f) (nv_name w)) fs gs); [|intros f g (E & _); now rewrite E|exact H].
  destruct (_ <? 0); [cbn; auto|]. eapply grel_bind; [apply sget_same, H|]. intros f g (E1 & E2 & E3 & E4 & E5). rewrite E1, E2.
  eapply grel_bind; [apply grel_refl|]. intros o o' <-. eapply grel_bind; [apply sset_same; [exact H|]|].
  - repeat split. exact E5.
  - intros l l' HL. cbn. auto.
Qed.

Lemma prepare_same h names fs gs vars : Forall2 (same_nfactor h) fs gs -> prepare_utility_nodes names fs vars = prepare_utility_nodes names gs vars.
Proof.
  intros H. unfold prepare_utility_nodes. apply foldM_same. intros t [i w]. destruct (negb _); [reflexivity|]. destruct (nv_factor w) as [k|]; [|reflexivity].
  pose proof (sget_same _ _ _ (Z.of_nat k) H) as G. destruct (sget fs (Z.of_nat k)) as [f|e|p], (sget gs (Z.of_nat k)) as [g|e'|p']; cbn in G; try tauto; try (subst; reflexivity).
  destruct G as (_ & E & _). cbn [gbind]. now rewrite E.
Qed.

Lemma new_same h name info vars fs gs : Forall2 (same_nfactor h) fs gs ->
  grel (same_net h) (net_new name info vars fs) (net_new name info vars gs).
Proof.
  intros H. unfold net_new. eapply grel_bind; [apply grel_refl|]. intros names names' <-.
  eapply grel_bind with (R := fun x y => Forall2 (same_nfactor h) (fst x) (fst y) /\ snd x = snd y).
  - apply foldM_grel; [|cbn; auto]. intros [f1 v1] [g1 v1'] w (HF & E). cbn [fst snd] in *. subst v1'.
    eapply grel_bind; [apply link_factor_same, HF|]. intros [f2 w2] [g2 w2'] (HF2 & E2). cbn [fst snd] in *. subst w2'. cbn. auto.
  - intros [f1 v1] [g1 v1'] (HF & E). cbn [fst snd] in *. subst v1'. rewrite (prepare_same h names _ _ v1 HF).
    eapply grel_bind; [apply grel_refl|]. intros t t' <-. repeat split; auto. constructor.
Qed.

Lemma new_policies {D} name info vars (fs : list (nfactor D)) (n : network D) : net_new name info vars fs = Ok n -> n_policies n = [].
Proof.
  unfold net_new. destruct (collect_names vars) as [names|e|p]; cbn [gbind]; try discriminate.
  destruct (foldM _ _ vars) as [[f w]|e|p]; cbn [gbind]; try discriminate.
  destruct (prepare_utility_nodes names f w) as [t|e|p]; cbn [gbind]; try discriminate. intros E. now injection E as <-.
Qed.

(** ** Calls *)
Lemma solve_keeps_policies sc n ev q u uv ign h : n_policies (fst (snd (h_net_solve sc n ev q u uv ign h))) = n_policies n.
Proof.
  unfold h_net_solve, then_, h_assign_ve, call, done. destruct (h_to_ve sc 0 n _ h) as [h1 [[s names]|e|p]]; [|reflexivity..].
  destruct (h_solve_names sc s names ev q u uv h1) as [h2 [[s' f]|e|p]]; reflexivity.
Qed.

Lemma on_variables_keeps {X} n (op : vstate -> act A (vstate * X)) h h' m x : h_on_variables n op h = (h', Ok (m, x)) -> n_policies m = n_policies n.
Proof.
  unfold h_on_variables, bind, ret, lift. destruct (n_ve n) as [s|]; [|discriminate].
  destruct (op (ve_vs s) h) as [h1 [[vs y]|e|p]]; try discriminate. intros E. now injection E as _ <- _.
Qed.

Definition reply_ok (h h' : heap) (m : network nat) (x : reply nat) : Prop :=
  (forall a, In a (reply_arrays x) -> (List.length h <= a < List.length h')%nat /\ ~ In a (policy_arrays m)) /\ NoDup (reply_arrays x).

Definition call_ok (h : heap) (n : network nat) (c : heap * (network nat * gores (reply nat))) (c' : network A * gores (reply A)) : Prop :=
  old h (fst c) /\ same_net (fst c) (fst (snd c)) (fst c') /\ kept h n (fst (snd c)) /\
  same_answer (fst c) (snd (snd c)) (snd c') /\
  forall x, snd (snd c) = Ok x -> reply_ok h (fst c) (fst (snd c)) x.

Lemma fresh_reply h h' n m v f g : same_net h n v -> n_policies m = n_policies n -> fresh_view h h' f g -> 
  read_factor h' f = Some g /\ reply_ok h h' m (PFactor f).
Proof.
  intros Hn EP (V & F). split; [now apply view_read_factor|]. destruct V as (_ & _ & b & Eb & Ed). unfold reply_ok. cbn [reply_arrays]. rewrite Eb in *. cbn in F.
  split; [|repeat constructor; intros []]. intros a [<-|[]]. split; [split; [exact F|apply nth_error_Some; congruence]|].
  intros H. unfold policy_arrays in H. rewrite EP in H. apply (policy_bound _ _ _ _ Hn) in H. lia.
Qed.

Lemma op_ok h n v (c : heap * gores (network nat * factor nat)) (c' : gores (network A * factor A)) :
  same_net h n v -> sim h h (fun _ => c) c' (same_op n h) ->
  call_ok h n (let '(h', r) := c in (h', on_result n PFactor r)) (on_result v PFactor c').
Proof.
  intros Hn HS. unfold sim in HS. destruct c as [h' r]. destruct HS as (Ho & HS). unfold call_ok.
  destruct r as [[m f]|e|p], c' as [[m' g]|e'|p']; try tauto; cbn [on_result fst snd].
  - destruct HS as (Hm & Hs & HF). cbn [fst snd] in *.
    destruct (fresh_reply h h' n m v f g Hn ltac:(apply Hs) HF) as (HR & HA).
    split; [exact Ho|]. split; [exact Hm|]. split; [eapply kept_only; [apply kept_refl|exact Hs]|]. split; [cbn; now rewrite HR|].
    intros x E. injection E as <-. exact HA.
  - split; [exact Ho|]. split; [now apply (same_net_old _ _ _ _ Ho)|]. split; [apply kept_refl|]. split; [exact HS|discriminate].
  - split; [exact Ho|]. split; [now apply (same_net_old _ _ _ _ Ho)|]. split; [apply kept_refl|]. split; [exact HS|discriminate].
Qed.

Lemma serve_ok sc h n v rq rq' : positional sc -> same_net h n v -> read_request h rq = Some rq' -> is_training rq = false ->
  call_ok h n (h_serve sc n rq h) (serve sc v rq').
Proof.
  intros Hsc Hn HR HT. destruct rq; cbn [read_request] in HR; try discriminate HT.
  - (* query *)
    injection HR as <-. cbn [h_serve serve]. pose proof (simn_solve_query sc Hsc h n h n v ev query ignorePolicies (old_refl h) Hn (kept_refl h n)) as HS.
    assert (EP : n_policies (fst (snd (h_net_solve_query sc n ev query ignorePolicies h))) = n_policies n).
    { unfold h_net_solve_query, then_, call, done. pose proof (solve_keeps_policies sc n ev query false "" ignorePolicies h) as E.
      destruct (h_net_solve sc n ev query false "" ignorePolicies h) as [h1 [m r]]. cbn [fst snd] in E. destruct r as [f|e|p]; [|exact E..].
      destruct (h_query_marginals m f query h1) as [h2 [[m2 res]|e|p]] eqn:EQ; [|exact E..]. cbn [fst snd]. rewrite <- E. clear - EQ.
      unfold h_query_marginals in EQ. revert EQ. generalize (@nil (string * list nat)). revert m h1. induction query as [|q query IH]; intros m h1 l EQ; cbn [foldA] in EQ.
      - unfold ret in EQ. congruence.
      - unfold bind in EQ at 1. destruct (bind _ _ h1) as [h3 [[m3 l3]|e|p]] eqn:EB; try discriminate. rewrite (IH _ _ _ EQ).
        unfold bind in EB. destruct (h_net_marginal m f q h1) as [h4 [[m4 f4]|e|p]] eqn:E4; try discriminate.
        destruct (h_net_normalize m4 f4 h4) as [h5 [[m5 f5]|e|p]] eqn:E5; try discriminate. unfold ret in EB. injection EB as <- <- <-.
        rewrite (on_variables_keeps _ _ _ _ _ _ E5). unfold h_net_marginal in E4. destruct (sget_map (n_names m) q); [|discriminate]. now rewrite (on_variables_keeps _ _ _ _ _ _ E4). }
    unfold simn in HS. destruct (h_net_solve_query sc n ev query ignorePolicies h) as [h' [m r]], (net_solve_query sc v ev query ignorePolicies) as [v' r'].
    cbn [fst snd] in *. destruct HS as (Ho & Hm & Hk & HS). unfold call_ok. cbn [fst snd].
    split; [exact Ho|]. split; [exact Hm|]. split; [exact Hk|].
    destruct r as [[ms f]|e|p], r' as [[ms' g]|e'|p']; try tauto; cbn [gmap]; [|split; [exact HS|discriminate]..].
    destruct HS as (HM & HF & ND). cbn [fst snd] in *. destruct (fresh_reply h h' n m v f g Hn EP HF) as (HG & HA & _). split.
    + cbn. rewrite HG. rewrite (related_read_all _ ms ms'); [reflexivity|]. eapply related_impl; [|exact HM].
      intros [k r] [k' w] (E & a & Ea & Ed & _). cbn [fst snd] in *. subst k' r. unfold read_named. cbn. now rewrite Ed.
    + intros x E. injection E as <-. split; [|exact ND]. intros a Ha. cbn [reply_arrays] in Ha. apply in_app_iff in Ha. destruct Ha as [Ha|Ha]; [|now apply HA].
      clear - HM Ha EP Hn. induction HM as [|[k r] [k' w] l l' (_ & b & Eb & Ed & F) _ IH]; [destruct Ha|]. cbn [flat_map snd] in *. rewrite Eb in Ha. destruct Ha as [<-|Ha]; [|now apply IH].
      split; [split; [exact F|apply nth_error_Some; congruence]|]. intros H. unfold policy_arrays in H. rewrite EP in H. apply (policy_bound _ _ _ _ Hn) in H. lia.
  - (* utility *)
    injection HR as <-. cbn [h_serve serve]. unfold h_net_solve_utility, net_solve_utility.
    pose proof (simn_solve sc Hsc h n h n v ev query true utilityVar ignorePolicies (old_refl h) Hn (kept_refl h n)) as HS.
    pose proof (solve_keeps_policies sc n ev query true utilityVar ignorePolicies h) as EP.
    unfold simn in HS. destruct (h_net_solve sc n ev query true utilityVar ignorePolicies h) as [h' [m r]], (net_solve sc v ev query true utilityVar ignorePolicies) as [v' r'].
    cbn [fst snd] in *. destruct HS as (Ho & Hm & Hk & HS). unfold call_ok. cbn [fst snd].
    split; [exact Ho|]. split; [exact Hm|]. split; [exact Hk|].
    destruct r as [f|e|p], r' as [g|e'|p']; try tauto; cbn [gmap]; [|split; [exact HS|discriminate]..].
    destruct (fresh_reply h h' n m v f g Hn EP HS) as (HG & HA). split; [cbn; now rewrite HG|]. intros x E. injection E as <-. exact HA.
  - (* policies *)
    injection HR as <-. cbn [h_serve serve].
    pose proof (simn_solve_policies sc Hsc h n h n v stepwise (old_refl h) Hn (kept_refl h n)) as HS.
    unfold simn in HS. destruct (h_net_solve_policies sc n stepwise h) as [h' [m r]], (net_solve_policies sc v stepwise) as [v' r'].
    cbn [fst snd] in *. destruct HS as (Ho & Hm & Hk & HS). unfold call_ok. cbn [fst snd].
    split; [exact Ho|]. split; [exact Hm|]. split; [exact Hk|].
    destruct r as [l|e|p], r' as [l'|e'|p']; try tauto; cbn [gmap]; [|split; [exact HS|discriminate]..].
    destruct HS as (h1 & Ho1 & HP & HL & ND). split.
    + cbn. rewrite (related_read_all _ l l'); [reflexivity|]. eapply related_impl; [|exact HL].
      intros [k f] [k' g] (E & HF & _). cbn [fst snd] in *. subst k'. unfold read_named. cbn [fst snd]. now rewrite (same_read_nfactor _ _ _ HF).
    + intros x E. injection E as <-. split; [|exact ND]. intros a Ha. cbn [reply_arrays] in Ha. pose proof (old_length _ _ Ho1) as L1.
      clear - HL Ha HP L1. induction HL as [|[k f] [k' g] l l' (_ & HF & b & Eb & F) _ IH]; [destruct Ha|]. cbn [flat_map snd] in *.
      unfold table_of in Ha at 1. rewrite Eb in Ha. destruct Ha as [<-|Ha]; [|now apply IH].
      destruct HF as (_ & _ & _ & _ & HS). unfold same_slice in HS. rewrite Eb in HS. destruct (nf_table g) as [w|]; [|tauto]. destruct HS as (c & Ec & Ed). injection Ec as <-.
      split; [split; [lia|apply nth_error_Some; congruence]|]. intros H. apply HP in H. lia.
  - (* to evidence *)
    injection HR as <-. cbn [h_serve serve]. pose proof (sim_to_evidence h n v v0 value Hn) as HS. unfold sim in HS.
    destruct (h_net_to_evidence n v0 value h) as [h' r], (net_to_evidence v v0 value) as [w|e'|p']; destruct HS as (Ho & HS); unfold call_ok; cbn [fst snd];
      (split; [exact Ho|]; split; [now apply (same_net_old _ _ _ _ Ho)|]; split; [apply kept_refl|]);
      destruct r as [r|e|p]; try tauto; cbn [gmap]; [|split; [exact HS|discriminate]..].
    destruct HS as (-> & ->). split; [cbn; now rewrite nth_last|]. intros x E. injection E as <-. split; [|repeat constructor; intros []]. intros a [<-|[]]. rewrite app_length. cbn. split; [lia|].
    intros H. apply (policy_bound _ _ _ _ Hn) in H. lia.
  - destruct (read_factor h f) as [g|] eqn:EF; [|discriminate]. injection HR as <-. apply read_factor_view in EF. cbn [h_serve serve].
    apply op_ok; [exact Hn|]. now apply (sim_net_normalize h n v f g).
  - destruct (read_factor h utility) as [g|] eqn:EF; [|discriminate]. destruct (read_factor h probs) as [g2|] eqn:EF2; [|discriminate]. injection HR as <-.
    apply read_factor_view in EF. apply read_factor_view in EF2. cbn [h_serve serve]. apply op_ok; [exact Hn|]. now apply (sim_net_normalize_utility h n v).
  - destruct (read_factor h f) as [g|] eqn:EF; [|discriminate]. injection HR as <-. apply read_factor_view in EF. cbn [h_serve serve].
    apply op_ok; [exact Hn|]. now apply (sim_net_marginal h n v f g).
  - destruct (read_factor h f) as [g|] eqn:EF; [|discriminate]. injection HR as <-. apply read_factor_view in EF. cbn [h_serve serve].
    apply op_ok; [exact Hn|]. now apply (sim_net_rearrange h n v f g).
Qed.

(** Training *)
Lemma train_ok sc h n v samples : same_net h n v -> NoDup (table_arrays n) -> (forall a, In a (policy_arrays n) -> ~ In a (table_arrays n)) ->
  let '(h', (m, r)) := h_serve sc n (RTrain samples) h in
  let '(v', r') := serve sc v (RTrain samples) in
  m = n /\ writes (table_arrays n) h h' /\ same_answer h' r r' /\ ((forall p, r <> Panic p) -> same_net h' n v').
Proof.
  intros Hn ND HD. cbn [h_serve serve]. pose proof (train_sim h n v samples Hn ND HD) as (HW & HS).
  destruct (h_train n samples h) as [h' r], (train v samples) as [v' r']. cbn [fst snd] in *. split; [reflexivity|]. split; [exact HW|].
  destruct r as [u|e|p], r' as [u'|e'|p']; try (destruct HS; fail).
  - split; [reflexivity|auto].
  - destruct HS as (-> & HS). split; [reflexivity|auto].
  - split; [exact HS|]. intros H. now destruct (H p).
Qed.

(** ** Programs *)
Definition inv (h : heap) (n : network nat) (v : network A) (mine : list nat) : Prop :=
  same_net h n v /\ (forall a, In a (policy_arrays n) -> ~ In a (table_arrays n)) /\
  forall a, In a mine -> (a < List.length h)%nat /\ ~ In a (table_arrays n) /\ ~ In a (policy_arrays n).

Lemma kept_tables h n m : kept h n m -> table_arrays m = table_arrays n.
Proof. intros (E & _). unfold table_arrays. now rewrite E. Qed.

Lemma program_inv h n v mine : program h n v mine -> inv h n v mine.
Proof.
  induction 1 as [h name info vars fs gs n v mine HR E1 E2 HM|sc rq rq' h n v mine h' m r v' r' _ IH Hsc HR HT E1 E2 HP|h n v mine a d _ IH Ha|h n v mine d _ IH|h h' n v mine _ IH L HE].
  - assert (Hn : same_net h n v).
    { pose proof (new_same h name info vars fs gs) as G. rewrite E1, E2 in G. apply G. eapply related_impl; [|apply read_all_related, HR]. intros f g. apply read_nfactor_same. }
    pose proof (new_policies _ _ _ _ _ E1) as EP. unfold inv, policy_arrays. rewrite EP. split; [exact Hn|]. split; [intros a []|].
    rewrite (tables_arrays _ _ _ Hn) in HM. intros a Ha. destruct (HM a Ha). repeat split; auto.
  - destruct IH as (Hn & HD & HM). destruct (is_training rq) eqn:ET.
    + destruct rq; try discriminate ET. cbn [read_request] in HR. injection HR as <-. specialize (HT eq_refl). rewrite (tables_arrays _ _ _ Hn) in HT.
      pose proof (train_ok sc h n v samples Hn HT HD) as HS. rewrite E1, E2 in HS. destruct HS as (-> & HW & HA & HS). specialize (HS HP).
      split; [exact HS|]. split; [exact HD|]. intros a Ha. apply in_app_iff in Ha.
      assert (HX : In a mine). { destruct Ha as [Ha|Ha]; [|exact Ha]. destruct r as [x|e|p]; [|destruct Ha..]. cbn in E1. destruct (h_train n samples h) as [h2 [u|e|p]]; cbn in E1; inversion E1; subst; destruct Ha. }
      rewrite (proj1 HW). now apply HM.
    + pose proof (serve_ok sc h n v rq rq' Hsc Hn HR ET) as HS. rewrite E1, E2 in HS. destruct HS as (Ho & Hm & Hk & HA & HX). cbn [fst snd] in *.
      pose proof (kept_tables _ _ _ Hk) as EK. pose proof (old_length _ _ Ho) as L. split; [exact Hm|]. split.
      * intros a Ha Hb. rewrite EK in Hb. destruct Hk as (_ & _ & Hk). destruct (Hk a Ha) as [H|H]; [now apply (HD a)|]. apply (table_bound _ _ _ _ Hn) in Hb. lia.
      * intros a Ha. apply in_app_iff in Ha. destruct Ha as [Ha|Ha].
        -- destruct r as [x|e|p]; [|destruct Ha..]. destruct (proj1 (HX x eq_refl) a Ha) as (B & NP). split; [lia|]. split; [|exact NP].
           rewrite EK. intros H. apply (table_bound _ _ _ _ Hn) in H. lia.
        -- destruct (HM a Ha) as (B & NT & NP). split; [lia|]. rewrite EK. split; [exact NT|]. intros H. destruct Hk as (_ & _ & Hk). destruct (Hk a H) as [H'|H']; [now apply NP|lia].
  - destruct IH as (Hn & HD & HM). destruct (HM a Ha) as (B & NT & NP). split; [now apply same_net_write|]. split; [exact HD|]. rewrite upd_nth_length. exact HM.
  - destruct IH as (Hn & HD & HM). split; [apply (same_net_old _ _ _ _ (old_app h [d]) Hn)|]. split; [exact HD|]. rewrite app_length. cbn [List.length].
    intros a [<-|Ha]; [|destruct (HM a Ha) as (B & H); split; [lia|exact H]]. split; [lia|]. split; intros H.
    + apply (table_bound _ _ _ _ Hn) in H. lia.
    + apply (policy_bound _ _ _ _ Hn) in H. lia.
  - destruct IH as (Hn & HD & HM). rewrite (tables_arrays _ _ _ Hn), (policies_arrays _ _ _ Hn) in HE. split; [now apply (same_net_other h)|]. split; [exact HD|].
    intros a Ha. destruct (HM a Ha) as (B & H). split; [lia|exact H].
Qed.

End Session.
