(** The terminal application: what the events do. *)
From Coq Require Import ZArith List Bool String Lia QArith Qcanon.
From Verif Require Import Num GoBase VarModel GoFacts Tuples SpecFactor XnumFacts VEModel SpecVE NetModel SpecNet NetNew NetVars NetFactors NetVE NetQuery NetMass NetExtra
  SpecNetPolicy CliModel DocModel TrainFacts TuiModel SpecTui SpecApp TuiSolve TuiMove TuiGrid TuiDraw TuiCanvas TuiApp TuiTable.
Import ListNotations.
Open Scope string_scope.
Open Scope list_scope.
Open Scope Z_scope.

Lemma Forall2_nth {X Y} (P : X -> Y -> Prop) l l' : Forall2 P l l' -> forall i x y, nth_error l i = Some x -> nth_error l' i = Some y -> P x y.
Proof. intros F. induction F as [|x y l l' H F IH]; intros [|i] a b A B; try discriminate; [injection A as ->; injection B as ->; auto|eapply IH; eauto]. Qed.
Lemma Forall2_len {X Y} (P : X -> Y -> Prop) l l' : Forall2 P l l' -> List.length l = List.length l'.
Proof. intros F. induction F; simpl; congruence. Qed.
Lemma nth_Forall2 {X Y} (P : X -> Y -> Prop) : forall l l', List.length l = List.length l' -> (forall i x y, nth_error l i = Some x -> nth_error l' i = Some y -> P x y) -> Forall2 P l l'.
Proof. induction l as [|x l IH]; intros [|y l'] E H; try discriminate; constructor; [apply (H 0%nat); auto|apply IH; auto; intros i; apply (H (S i))]. Qed.

(** ** Maps with removed keys *)
Lemma mget_mdel {V} (m : list (string * V)) k k' : sget_map (mdel String.eqb m k) k' = if String.eqb k' k then None else sget_map m k'.
Proof.
  induction m as [|[k1 v] m IH]; [cbn; destruct (String.eqb k' k); auto|]. unfold mdel in *. cbn [filter fst]. destruct (String.eqb_spec k k1) as [->|Hn]; cbn [negb mget].
  - rewrite IH. destruct (String.eqb_spec k' k1); auto.
  - destruct (String.eqb_spec k' k1) as [->|H1]; [destruct (String.eqb_spec k1 k); congruence|]. exact IH.
Qed.
Lemma mdel_NoDup {V} (m : list (string * V)) k : NoDup (map fst m) -> NoDup (map fst (mdel String.eqb m k)).
Proof.
  unfold mdel. induction m as [|[k1 v] m IH]; intros H; [constructor|]. cbn [map fst] in H. inversion H; subst. cbn [filter fst]. destruct (negb (String.eqb k k1)); auto. cbn [map fst]. constructor; auto.
  intros Hin. apply H2. apply in_map_iff in Hin. destruct Hin as (e & E & He). apply filter_In in He. apply in_map_iff. exists e. tauto.
Qed.

Section Session.
Variable n : network xnum.
Hypothesis Hd : displayable n.
Hypothesis Hroom : roomy n.
Hypothesis Hlinked : forall v, In v (n_vars n) -> exists k f, nv_factor v = Some k /\ nth_error (n_factors n) k = Some f.
Let Hwf : wf_network n := dp_wf n Hd.
Notation core := (core n).
Notation app_ok := (app_ok n).

Lemma screen_update a : app_ok a -> updatable a.
Proof. intros [_ (W & H & HW & HH & Hos) _]. exists W, H. destruct Hos. auto 10. Qed.
Lemma update_canvas' a : updatable a -> canvas_ok a.
Proof. intros (W & H & HW & HH & A & B & C & _). exists W, H. auto 10. Qed.
Lemma render_again a : core a -> updatable a -> exists a', render true a = Ok a' /\ app_ok a' /\ a_evidence a' = a_evidence a /\ a_ignore a' = a_ignore a /\ a_net a' = a_net a /\
  a_selected a' = a_selected a /\ a_state a' = a_state a /\ a_running a' = a_running a /\ a_page a' = a_page a /\ a_saved a' = a_saved a /\ map t_var (a_nodes a') = map t_var (a_nodes a) /\ map frame (a_nodes a') = map frame (a_nodes a).
Proof.
  intros Hc Hu. destruct (render_app n Hd Hroom true a Hc (update_canvas' a Hu) (fun _ => Hu)) as (nodes' & c & d & l & E & Ho & HV & HF). eexists. split; [exact E|]. split; [exact Ho|]. auto 20.
Qed.

Lemma core_selection a i s : core a -> 0 <= i < zlen (a_nodes a) -> 0 <= s -> core (set_selection a i s).
Proof. intros [c1 c2 c3 c4 c5 c6 c7 c8 c9] Hi Hs. constructor; auto. Qed.
Lemma update_selection a i s : updatable a -> updatable (set_selection a i s).
Proof. intros H. exact H. Qed.

(** ** Solving *)
Lemma node_data_of a : core a -> nodes_of (a_net a) (node_data a).
Proof.
  intros Hc. pose proof (co_nodes _ _ Hc) as F. pose proof (rl_vars _ _ (co_net _ _ Hc)) as F2. split.
  - apply nth_Forall2; [unfold node_data; rewrite map_length, <- (Forall2_len _ _ _ F2); apply (Forall2_len _ _ _ F)|]. intros i v p Hv Hp. unfold node_data in Hp. rewrite nth_error_map in Hp.
    destruct (nth_error (a_nodes a) i) as [t|] eqn:Et; [|discriminate]. injection Hp as <-. cbn [fst].
    destruct (nth_error (n_vars n) i) as [w|] eqn:Ew; [|apply nth_error_None in Ew; rewrite (Forall2_len _ _ _ F2) in Ew; apply nth_error_None in Ew; congruence].
    pose proof (Forall2_nth _ _ _ F i w t Ew Et) as Hn. pose proof (Forall2_nth _ _ _ F2 i w v Ew Hv) as (A1 & A2 & _). destruct (nd_same _ _ _ Hn) as (B1 & B2 & _). split; congruence.
  - intros node H0 Hn. rewrite (rl_tui _ _ (co_net _ _ Hc)) in *. rewrite (re_total_factor n (a_net a) (co_net _ _ Hc)). unfold node_data in Hn. rewrite nth_error_map in Hn.
    destruct (nth_error (a_nodes a) _) as [t|] eqn:Et; [|discriminate]. injection Hn as <-. cbn [snd].
    destruct (nth_error (n_vars n) (Z.to_nat (n_tui n))) as [w|] eqn:Ew; [|apply nth_error_None in Ew; rewrite (Forall2_len _ _ _ F) in Ew; apply nth_error_None in Ew; congruence].
    pose proof (Forall2_nth _ _ _ F _ w t Ew Et) as Hno. apply (nd_total _ _ _ Hno). unfold is_total. rewrite Ew, String.eqb_refl, andb_true_r. lia.
Qed.
Lemma solve_core scs a ev ig : core a -> valid_observations n ev ->
  exists n' m, let a1 := set_ignore (set_evidence a ev) ig in update_marginals scs a1 = (set_solution a1 n' m, Ok tt) /\ core (set_solution a1 n' m).
Proof.
  intros Hc Hev. pose proof (co_net _ _ Hc) as Hr. cbv zeta.
  destruct (solve_displays (a_net a) (re_displayable n (a_net a) Hr Hd) scs ig ev (re_observations n (a_net a) Hr ev Hev) (co_used _ _ Hc) (node_data a) (node_data_of a Hc)) as (n' & m & E & Hm & x & En').
  exists n', m. unfold update_marginals. change (node_data (set_ignore (set_evidence a ev) ig)) with (node_data a). cbn [a_net a_evidence a_ignore set_ignore set_evidence]. rewrite E. split; [reflexivity|].
  assert (Hr' : relaid n n') by (rewrite En'; eapply relaid_trans; [exact Hr|apply relaid_solver]).
  destruct Hc as [c1 c2 c3 c4 c5 c6 c7 c8 c9]. constructor; auto; cbn [a_net a_nodes a_evidence a_marginals a_ignore a_selected a_state set_solution set_ignore set_evidence].
  - eapply used_ready; [apply (re_displayable n (a_net a) Hr Hd)|exists x; exact En'].
  - rewrite En'. exact c4.
  - apply (re_displayed (a_net a) n (relaid_sym _ _ Hr)). exact Hm.
Qed.

(** ** Selected nodes *)
Lemma selected_get a : core a -> exists t v, sget (a_nodes a) (a_selected a) = Ok t /\ selected_node a = Some t /\ nth_error (a_nodes a) (Z.to_nat (a_selected a)) = Some t /\ In v (n_vars n) /\ node_of n v t.
Proof.
  intros Hc. pose proof (co_selected _ _ Hc) as Hs. destruct (sget_in (a_nodes a) (a_selected a) Hs) as (t & E & Hin). destruct (node_in n a t Hc Hin) as (v & Hv & Hn). exists t, v.
  split; auto. apply sget_inv in E. destruct E as [E1 E2]. split; [unfold selected_node; replace (a_selected a <? 0) with false by lia; auto|]. auto.
Qed.
Lemma node_outcomes v t : In v (n_vars n) -> node_of n v t -> t_outcomes t = nv_outcomes v /\ t_name t = nv_name v /\ is_utility (t_var t) = is_utility v /\ 0 < zlen (t_outcomes t).
Proof.
  intros Hv Hn. destruct (nd_same _ _ _ Hn) as (E1 & E2 & E3 & _). unfold t_outcomes, t_name, is_utility. rewrite E1, E2, E3. destruct (wn_outcomes n Hwf v Hv). auto.
Qed.
Lemma selection_same a a' : map t_var (a_nodes a') = map t_var (a_nodes a) -> a_selected a' = a_selected a -> a_state a' = a_state a -> valid_selection a -> valid_selection a'.
Proof.
  intros HV E1 E2 (t & Ht & Hs). unfold valid_selection, selected_node in *. rewrite E1, E2. destruct (a_selected a <? 0); [discriminate|]. pose proof (f_equal (fun l => nth_error l (Z.to_nat (a_selected a))) HV) as E. cbv beta in E. rewrite !nth_error_map, Ht in E.
  destruct (nth_error (a_nodes a') (Z.to_nat (a_selected a))) as [t'|]; [|discriminate]. injection E as E. exists t'. split; auto. unfold t_outcomes in *. rewrite E. auto.
Qed.
Lemma selection_at a i s t : nth_error (a_nodes a) i = Some t -> 0 <= s < zlen (t_outcomes t) -> valid_selection (set_selection a (Z.of_nat i) s).
Proof. intros Ht Hs. exists t. unfold selected_node. cbn [a_selected a_nodes a_state set_selection]. replace (Z.of_nat i <? 0) with false by lia. rewrite Nat2Z.id. auto. Qed.

(** ** Evidence *)
Lemma toggled_valid ev v o : valid_observations n ev -> In v (n_vars n) -> nv_type v <> Utility -> In o (nv_outcomes v) ->
  let ev' := match sget_map ev (nv_name v) with
             | Some old => if String.eqb old o then mdel String.eqb ev (nv_name v) else sset_map ev (nv_name v) o
             | None => sset_map ev (nv_name v) o end in
  valid_observations n ev' /\ forall y, sget_map ev' y = toggled ev (nv_name v) o y.
Proof.
  intros [Hn Ho] Hv Ht Hin. cbv zeta.
  assert (Hset : valid_observations n (sset_map ev (nv_name v) o) /\ forall y, sget_map (sset_map ev (nv_name v) o) y = if String.eqb y (nv_name v) then Some o else sget_map ev y).
  { split; [split|].
    - apply (mset_NoDup String.eqb String.eqb_eq). auto.
    - intros x o' Hx. pose proof (mset_NoDup String.eqb String.eqb_eq ev (nv_name v) o Hn) as Hnd. apply (In_mget String.eqb String.eqb_eq) in Hx; auto. destruct (string_dec (nv_name v) x) as [<-|Hne].
      + rewrite (mget_mset_same String.eqb String.eqb_eq) in Hx. injection Hx as <-. exists v. split; [apply (var_named_in n Hwf); auto|auto].
      + rewrite (mget_mset_other String.eqb String.eqb_eq) in Hx by auto. apply (mget_In String.eqb String.eqb_eq) in Hx. auto.
    - intros y. destruct (String.eqb_spec y (nv_name v)) as [->|Hne]; [apply (mget_mset_same String.eqb String.eqb_eq)|apply (mget_mset_other String.eqb String.eqb_eq); auto]. }
  unfold toggled. destruct (sget_map ev (nv_name v)) as [old|]; [destruct (String.eqb_spec old o)|]; auto.
  split; [split|].
  - apply mdel_NoDup. auto.
  - intros x o' Hx. apply (mdel_In String.eqb String.eqb_eq) in Hx. apply Ho. tauto.
  - intros y. apply mget_mdel.
Qed.
Definition rest_same (a a' : app) : Prop :=
  a_selected a' = a_selected a /\ a_state a' = a_state a /\ a_running a' = a_running a /\ a_page a' = a_page a /\ a_saved a' = a_saved a /\ map t_var (a_nodes a') = map t_var (a_nodes a) /\ map frame (a_nodes a') = map frame (a_nodes a).
Lemma enter_ok scs a t v s : core a -> updatable a -> sget (a_nodes a) (a_selected a) = Ok t -> In v (n_vars n) -> node_of n v t -> is_utility (t_var t) = false -> nth_error (t_outcomes t) (Z.to_nat (a_state a)) = Some s ->
  exists a', input_enter scs a = Ok a' /\ core a' /\ updatable a' /\ (forall y, sget_map (a_evidence a') y = toggled (a_evidence a) (t_name t) s y) /\ a_ignore a' = a_ignore a /\ rest_same a a'.
Proof.
  intros Hc Hu Et Hv Hn Hut Hs. destruct (node_outcomes v t Hv Hn) as (Eo & En & Eu & _). pose proof (co_state _ _ Hc) as Hst.
  unfold input_enter. rewrite Et. cbn [gbind]. rewrite Hut. unfold sget. replace (a_state a <? 0) with false by lia. rewrite Hs. cbn [gbind].
  assert (Htu : nv_type v <> Utility). { rewrite Eu in Hut. unfold is_utility in Hut. destruct (nv_type v); simpl in Hut; congruence. }
  destruct (toggled_valid (a_evidence a) v s (co_evidence _ _ Hc) Hv Htu) as [Hev' Htog]; [rewrite <- Eo; eapply nth_error_In; eauto|]. cbv zeta in Hev', Htog. rewrite En.
  set (ev' := match sget_map (a_evidence a) (nv_name v) with Some _ => _ | None => _ end) in *.
  destruct (solve_core scs a ev' (a_ignore a) Hc Hev') as (n' & m & E & Hc').
  assert (Ea : set_ignore (set_evidence a ev') (a_ignore a) = set_evidence a ev') by (destruct a; reflexivity). rewrite Ea in E, Hc'. rewrite E. unfold must. cbn [fst snd]. eexists. split; [reflexivity|]. split; [exact Hc'|].
  split; [exact Hu|]. split; [exact Htog|]. split; auto. repeat split.
Qed.
Lemma enter_panic scs a t : core a -> sget (a_nodes a) (a_selected a) = Ok t -> is_utility (t_var t) = false -> zlen (t_outcomes t) <= a_state a -> input_enter scs a = Panic PIndex.
Proof.
  intros Hc Et Hu Hs. unfold input_enter. rewrite Et. cbn [gbind]. rewrite Hu. unfold sget. replace (a_state a <? 0) with false by (unfold zlen in Hs; lia).
  destruct (nth_error (t_outcomes t) (Z.to_nat (a_state a))) eqn:E; auto. assert (Z.to_nat (a_state a) < List.length (t_outcomes t))%nat by (apply nth_error_Some; congruence). unfold zlen in Hs. lia.
Qed.

(** ** The table *)
Lemma nodes_named a : core a -> Forall2 same_node (n_vars n) (map t_var (a_nodes a)).
Proof. intros Hc. pose proof (co_nodes _ _ Hc) as F. revert F. generalize (n_vars n) (a_nodes a). intros l l' F. induction F as [|v t l l' H F IH]; cbn [map]; constructor; [apply (nd_same _ _ _ H)|exact IH]. Qed.
Lemma names_nodup a : core a -> NoDup (map t_name (a_nodes a)).
Proof. intros Hc. replace (map t_name (a_nodes a)) with (map nv_name (map t_var (a_nodes a))) by (rewrite map_map; auto). rewrite (re_names _ _ (nodes_named a Hc)). apply (wn_names n Hwf). Qed.
Lemma known_parents a g : core a -> (exists w, var_named (n_vars n) g = Some w) -> exists v, var_named (map t_var (a_nodes a)) g = Some v.
Proof. intros Hc (w & Hw). pose proof (re_named _ _ (nodes_named a Hc) g) as H. rewrite Hw in H. destruct (var_named (map t_var (a_nodes a)) g); [eauto|destruct H]. Qed.
Lemma nodes_pos a u : core a -> In u (a_nodes a) -> t_outcomes u <> [].
Proof. intros Hc Hu. destruct (node_in n a u Hc Hu) as (v & Hv & Hn). destruct (node_outcomes v u Hv Hn) as (_ & _ & _ & H). intros E. rewrite E in H. unfold zlen in H. simpl in H. lia. Qed.
Lemma show_table_ok a : core a -> exists t f, selected_node a = Some t /\ t_factor t = Some f /\
  show_table a = Ok (set_page (set_table a (map CLabel (nf_given f ++ t_outcomes t) ::
    map (row_cells (a_nodes a) t f) (seq 0 (List.length (slice_of (nf_table f)) / List.length (t_outcomes t))))) PTable).
Proof.
  intros Hc. destruct (selected_get a Hc) as (t & v & Et & Es & Hk & Hv & Hn). destruct (nd_factor _ _ _ Hn) as (f & Ef & Efor & Hg & _). exists t, f. split; auto. split; auto.
  destruct (node_outcomes v t Hv Hn) as (_ & En & _). pose proof (co_selected _ _ Hc) as Hs.
  destruct (table_cells (a_nodes a) (names_nodup a Hc) (Z.to_nat (a_selected a)) t f Hk Ef) as (rows & cols & E1 & E2 & E3); [congruence|intros g Hin; apply known_parents; auto|intros u Hu; eapply nodes_pos; eauto|].
  unfold show_table. rewrite Z2Nat.id in * by lia. rewrite E1. cbn [gbind]. rewrite E2. cbn [gbind]. rewrite E3. reflexivity.
Qed.

(** ** Saving *)
Lemma save_ok a : core a -> exists d, to_yaml (a_net a) = Ok d /\ save_network a = Ok (set_saved a d) /\
  map (fun y => (y_name y, y_pos y)) (yd_vars d) = map (fun t => (t_name t, (b_x (t_bounds t), b_y (t_bounds t)))) (a_nodes a).
Proof.
  intros Hc. pose proof (co_net _ _ Hc) as Hr. pose proof (rl_vars _ _ Hr) as F.
  assert (G : forall v, In v (n_vars (a_net a)) -> exists y, yaml_var (a_net a) v = Ok y /\ y_name y = nv_name v /\ y_pos y = nv_pos v).
  { intros v Hv. destruct (re_in _ _ F v Hv) as (w & Hw & (E1 & E2 & E3 & E4)). destruct (Hlinked w Hw) as (k & f & Ek & Ef). unfold yaml_var. rewrite E4, Ek, (rl_factors _ _ Hr), Ef. cbn [gbind].
    destruct (wn_outcomes n Hwf w Hw) as [Ho _]. rewrite E3. replace (zlen (nv_outcomes w) =? 0) with false by lia.
    set (c := zlen (nv_outcomes w)) in *. set (T := slice_of (nf_table f)).
    destruct (mapM (fun i => sslice T (i * c) ((i + 1) * c)) (zrange 0 (Z.quot (zlen T) c))) as [rows| |] eqn:Em; [cbn [gbind]; eexists; split; [reflexivity|auto]| |];
    exfalso; rewrite (mapM_ok _ (fun i => firstn (Z.to_nat ((i + 1) * c - i * c)) (skipn (Z.to_nat (i * c)) T))) in Em; try discriminate; intros i Hi; apply in_zrange in Hi;
    unfold sslice; replace (_ || _ || _) with false; auto; symmetry; rewrite !orb_false_iff; pose proof (Z.mul_quot_le (zlen T) c (zlen_nonneg T) ltac:(lia)); repeat split; apply Z.ltb_ge; nia. }
  assert (G2 : exists ys, mapM (yaml_var (a_net a)) (n_vars (a_net a)) = Ok ys /\ map (fun y => (y_name y, y_pos y)) ys = map (fun v => (nv_name v, nv_pos v)) (n_vars (a_net a))).
  { revert G. generalize (n_vars (a_net a)) as l. induction l as [|v l IH]; intros G; cbn [mapM]; [exists []; auto|]. destruct (G v (or_introl eq_refl)) as (y & -> & E1 & E2). cbn [gbind]. destruct IH as (ys & -> & Ey); [intros; apply G; right; auto|]. cbn [gbind]. exists (y :: ys). split; auto. cbn [map]. congruence. }
  destruct G2 as (ys & Ey & Em). eexists. unfold save_network, to_yaml. rewrite Ey. cbn [gbind]. split; [reflexivity|]. split; [reflexivity|]. cbn [yd_vars]. rewrite Em.
  pose proof (co_places _ _ Hc) as P. pose proof (co_nodes _ _ Hc) as Q.
  apply nth_ext_sget; [unfold zlen; rewrite !map_length, (Forall2_len _ _ _ P); auto|]. intros i Hi. unfold zlen in Hi. rewrite map_length in Hi. rewrite <- (Z2Nat.id i) by lia. rewrite !sget_nat, !nth_error_map.
  pose proof (Forall2_len _ _ _ P) as L1. pose proof (Forall2_len _ _ _ Q) as L2.
  destruct (nth_error (n_vars (a_net a)) (Z.to_nat i)) as [v|] eqn:Ev; [|apply nth_error_None in Ev; lia]. destruct (nth_error (a_nodes a) (Z.to_nat i)) as [t|] eqn:Et; [|apply nth_error_None in Et; lia].
  destruct (nth_error (n_vars n) (Z.to_nat i)) as [w|] eqn:Ew; [|apply nth_error_None in Ew; lia]. cbn [option_map].
  rewrite (Forall2_nth _ _ _ P _ _ _ Ev Et). destruct (nd_same _ _ _ (Forall2_nth _ _ _ Q _ _ _ Ew Et)) as (E1 & _). destruct (Forall2_nth _ _ _ F _ _ _ Ew Ev) as (E2 & _). unfold t_name. do 2 f_equal. congruence.
Qed.
End Session.
