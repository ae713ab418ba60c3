(** What stays true of the terminal application during a session. *)
From Coq Require Import ZArith List Bool String Lia QArith Qcanon.
From Verif Require Import Num GoBase VarModel GoFacts Tuples SpecFactor XnumFacts VEModel SpecVE NetModel SpecNet NetVars NetFactors NetVE NetQuery NetMass NetExtra
  SpecNetPolicy CliModel DocModel TrainFacts TuiModel SpecTui SpecApp TuiSolve TuiMove TuiGrid TuiDraw TuiCanvas.
Import ListNotations.
Open Scope string_scope.
Open Scope list_scope.
Open Scope Z_scope.

(** ** The numbers shown have a place *)
(** The total utility node has a row for each parent. *)
Definition roomy (n : network xnum) : Prop :=
  forall v f, In v (n_vars n) -> is_total n (nv_name v) = true -> total_factor n = Some f -> (List.length (nf_given f) <= List.length (nv_outcomes v))%nat.

Section Fits.
Variable n : network xnum.
Hypothesis Hd : displayable n.
Hypothesis Hroom : roomy n.
Let Hwf : wf_network n := dp_wf n Hd.
Variables (ig : bool) (ev : list (string * string)).
Hypothesis Hev : valid_observations n ev.
Notation ign := (ignored_by ig ev).

Lemma qsum_member l (x : Qc) : (forall y, In y l -> (0 <= y)%Qc) -> In x l -> (x <= qsum l)%Qc.
Proof.
  induction l as [|y l IH]; intros Hnn Hx; [destruct Hx|]. destruct Hx as [->|Hx].
  - simpl. rewrite <- (Qcplus_0_r x) at 1. apply Qcplus_le_compat; [apply Qcle_refl|]. clear IH. induction l as [|z l IH]; [apply Qcle_refl|]. simpl.
    rewrite <- (Qcplus_0_r 0). apply Qcplus_le_compat; [apply Hnn; right; left; auto|apply IH; intros w [->|Hw]; apply Hnn; [left; auto|right; right; auto]].
  - simpl. rewrite <- (Qcplus_0_l x). apply Qcplus_le_compat; [apply Hnn; left; auto|apply IH; auto; intros; apply Hnn; right; auto].
Qed.
Lemma posterior_bar v k : In v (n_vars n) -> nv_type v <> Utility -> ~ In (nv_name v) (map fst ev) -> (k < List.length (nv_outcomes v))%nat ->
  bar_ok (shown_posterior n ign ev (nv_name v) k).
Proof.
  intros Hv Ht Hne Hk. unfold shown_posterior. destruct (qeq _ 0) eqn:Em; [exact I|]. assert (Em' : mass n ign (agrees (n_vars n) ev) <> 0%Qc) by (intros E0; apply qeq_spec in E0; congruence). clear Em. rename Em' into Em. cbn.
  assert (Hnn : forall j, (0 <= posterior n ign ev (nv_name v) j)%Qc) by (intros j; apply posterior_nonneg; auto; apply (dp_nonneg n Hd)).
  split; auto. rewrite <- (posterior_sums n Hwf ign ev (nv_name v) Hev (vars_askable n Hd ig ev v Hv Ht Hne) Em). apply qsum_member.
  - intros y Hy. apply in_map_iff in Hy. destruct Hy as (j & <- & _). auto.
  - apply in_map. apply in_seq. unfold num_outcomes. rewrite (proj2 (var_named_in n Hwf (nv_name v) v)) by auto. lia.
Qed.

Definition count_of (v : nvar) : nat :=
  if is_total n (nv_name v) then match total_factor n with None => 0 | Some f => S (List.length (combine (nf_given f) (slice_of (nf_table f)))) end
  else match nv_type v with Utility => 2 | _ => List.length (nv_outcomes v) end.
Lemma observed_not v o : In v (n_vars n) -> sget_map ev (nv_name v) = Some o -> nv_type v <> Utility /\ In o (nv_outcomes v).
Proof.
  intros Hv E. apply (mget_In String.eqb String.eqb_eq) in E. destruct (proj2 Hev _ _ E) as (w & Hw & Ht & Ho).
  assert (w = v) by (rewrite (proj2 (var_named_in n Hwf (nv_name v) v)) in Hw by auto; congruence). subst. auto.
Qed.
Lemma total_utility v : In v (n_vars n) -> is_total n (nv_name v) = true -> nv_type v = Utility.
Proof.
  intros Hv Ht. apply (total_kind n Hwf) in Ht. unfold kind in Ht. rewrite (proj2 (var_named_in n Hwf (nv_name v) v)) in Ht by auto. simpl in Ht. congruence.
Qed.
Lemma not_observed v : sget_map ev (nv_name v) = None -> ~ In (nv_name v) (map fst ev).
Proof. intros E. apply (mget_None String.eqb String.eqb_eq) in E. auto. Qed.

Theorem shown_count v : In v (n_vars n) -> List.length (shown_numbers n ig ev v) = count_of v.
Proof.
  intros Hv. unfold shown_numbers, count_of. destruct (sget_map ev (nv_name v)) as [o|] eqn:Eo.
  - destruct (observed_not v o Hv Eo) as [Ht _]. destruct (is_total n (nv_name v)) eqn:Et; [apply total_utility in Et; congruence|].
    unfold one_hot. rewrite map_length. destruct (nv_type v); congruence.
  - destruct (is_total n (nv_name v)).
    + destruct (total_factor n); auto. rewrite app_length, map_length. simpl. lia.
    + destruct (nv_type v); try (rewrite map_length, seq_length; auto). auto.
Qed.
Theorem shown_fits v : In v (n_vars n) -> fits v (shown_numbers n ig ev v).
Proof.
  intros Hv. unfold fits. pose proof (shown_count v Hv) as Hc. unfold count_of in Hc. destruct (wn_outcomes n Hwf v Hv) as [Ho _]. unfold is_utility.
  destruct (nv_type v) eqn:Et; cbv iota in Hc.
  - split.
    + destruct (is_total n (nv_name v)) eqn:E; [apply total_utility in E; congruence|]. unfold zlen. lia.
    + unfold shown_numbers. destruct (sget_map ev (nv_name v)) as [o|] eqn:Eo.
      * apply Forall_forall. intros p Hp. apply in_map_iff in Hp. destruct Hp as (o' & <- & _). destruct (String.eqb o' o); cbn; split; try apply Qcle_refl; discriminate.
      * destruct (is_total n (nv_name v)) eqn:E; [apply total_utility in E; congruence|]. rewrite Et. apply Forall_forall. intros p Hp. apply in_map_iff in Hp. destruct Hp as (k & <- & Hk). apply in_seq in Hk.
        apply posterior_bar; auto; [congruence|apply not_observed; auto|lia].
  - split.
    + destruct (is_total n (nv_name v)) eqn:E; [apply total_utility in E; congruence|]. unfold zlen. lia.
    + unfold shown_numbers. destruct (sget_map ev (nv_name v)) as [o|] eqn:Eo.
      * apply Forall_forall. intros p Hp. apply in_map_iff in Hp. destruct Hp as (o' & <- & _). destruct (String.eqb o' o); cbn; split; try apply Qcle_refl; discriminate.
      * destruct (is_total n (nv_name v)) eqn:E; [apply total_utility in E; congruence|]. rewrite Et. apply Forall_forall. intros p Hp. apply in_map_iff in Hp. destruct Hp as (k & <- & Hk). apply in_seq in Hk.
        apply posterior_bar; auto; [congruence|apply not_observed; auto|lia].
  - cbn [nodeType_eqb]. destruct (is_total n (nv_name v)) eqn:E; [|unfold zlen in *; lia]. destruct (total_factor n) as [f|] eqn:Ef; [|unfold zlen; lia].
    pose proof (Hroom v f Hv E Ef). rewrite combine_length in Hc. unfold zlen. lia.
Qed.
End Fits.

(** ** Pictures *)
(** Nodes that look the same. *)
Definition looks (t u : tnode) : Prop :=
  t_var t = t_var u /\ t_bars t = t_bars u /\ b_w (t_bounds t) = b_w (t_bounds u) /\ b_h (t_bounds t) = b_h (t_bounds u).
Lemma node_layer_looks t u p sel st e y x : looks t u -> node_layer t p sel st e y x = node_layer u p sel st e y x.
Proof.
  intros (E1 & E2 & E3 & E4). unfold node_layer, border_dots. rewrite E1, E3, E4.
  assert (Et : forall l, layers (text_of t) l y x = layers (text_of u) l y x).
  { induction l as [|q l IH]; auto. rewrite !layers_cons, IH. unfold text_of. rewrite E2, E3. auto. }
  assert (Eb : forall l, layers (bar_of t sel st e) l y x = layers (bar_of u sel st e) l y x).
  { induction l as [|q l IH]; auto. rewrite !layers_cons, IH. unfold bar_of. destruct (bar_parts (snd q)) as [[full part]| |]; auto. unfold bar_layer. rewrite E2, E3. auto. }
  unfold over. destruct (is_utility (t_var u)); rewrite ?Et, ?Eb; auto.
Qed.
Lemma render_looks t u p sel st e : node_ok t -> node_ok u -> fits (t_var t) p -> looks t u -> t_runes t = t_runes u ->
  exists g, render_node t p sel st e = Ok (with_runes t g) /\ render_node u p sel st e = Ok (with_runes u g).
Proof.
  intros Ht Hu Hf Hl Er. pose proof Hl as (E1 & E2 & E3 & E4). destruct (render_node_ok t p sel st e Ht Hf) as (g & Eg & Hg & Pg).
  destruct (render_node_ok u p sel st e Hu) as (g' & Eg' & Hg' & Pg'); [congruence|]. exists g. split; auto. rewrite Eg'. do 2 f_equal.
  apply (grid_ext (b_w (t_bounds t)) (b_h (t_bounds t))).
  - rewrite E3, E4. apply (no_runes _ Hg').
  - apply (no_runes _ Hg).
  - intros y x Hy Hx. rewrite Pg, Pg' by congruence. rewrite (node_layer_looks t u) by auto. rewrite Er. auto.
Qed.

Section Session.
(** The network shown. *)
Variable n : network xnum.
Hypothesis Hd : displayable n.
Hypothesis Hroom : roomy n.
Let Hwf : wf_network n := dp_wf n Hd.

(** The texts of the utilities of a node are never longer than usual. *)
Definition modest (v : nvar) : Prop := is_utility v = true -> forall ig ev, valid_observations n ev -> Forall short (shown_numbers n ig ev v).
(** The picture of a node is that of a new node with these numbers. *)
Definition pictured (t : tnode) (ig : bool) (ev : list (string * string)) (sel : bool) (st : Z) : Prop :=
  exists u u', new_node (t_var t) (t_factor t) = Ok u /\
    render_node u (shown_numbers n ig ev (t_var t)) sel st (has_key ev (t_name t)) = Ok u' /\ t_runes t = t_runes u'.
Definition sketched (t : tnode) : Prop :=
  modest (t_var t) ->
  (exists u, new_node (t_var t) (t_factor t) = Ok u /\ t_runes t = t_runes u) \/
  exists ig ev sel st, valid_observations n ev /\ pictured t ig ev sel st.

(** Nodes and network belong together. *)
Record node_of (v : nvar) (t : tnode) : Prop := {
  nd_same : same_node v (t_var t);
  nd_color : known_color (t_var t);
  nd_ok : node_ok t;
  nd_left : 0 <= b_x (t_bounds t);
  nd_top : 0 <= b_y (t_bounds t);
  nd_factor : exists f, t_factor t = Some f /\ nf_for f = nv_name v /\ (forall g, In g (nf_given f) -> exists w, var_named (n_vars n) g = Some w) /\
    (is_total n (nv_name v) = false -> NoDup (nf_given f ++ [nf_for f]) /\ exists l, nf_table f = Some (map Fin l) /\ List.length l = table_size (n_vars n) (nf_given f ++ [nf_for f]));
  nd_total : is_total n (nv_name v) = true -> t_factor t = total_factor n
}.
Record core (a : app) : Prop := {
  co_net : relaid n (a_net a);
  co_used : used_before (a_net a);
  co_nodes : Forall2 node_of (n_vars n) (a_nodes a);
  co_places : Forall2 (fun v t => nv_pos v = (b_x (t_bounds t), b_y (t_bounds t))) (n_vars (a_net a)) (a_nodes a);
  co_selected : 0 <= a_selected a < zlen (a_nodes a);
  co_state : 0 <= a_state a;
  co_evidence : valid_observations n (a_evidence a);
  co_numbers : displayed n (a_ignore a) (a_evidence a) (a_marginals a);
  co_sketched : forall t, In t (a_nodes a) -> sketched t
}.
(** The canvas has a size and shows the edges where no nodes are. *)
Definition canvas_ok (a : app) : Prop := exists W H, 1 <= W /\ 1 <= H /\ nodes_ok W H (a_nodes a) /\ shaped W H (a_canvas a) /\ shaped W H (a_colors a).
Definition updatable (a : app) : Prop := exists W H, 1 <= W /\ 1 <= H /\ nodes_ok W H (a_nodes a) /\ shaped W H (a_canvas a) /\ shaped W H (a_colors a) /\
  known_cells W H (a_colors a) /\ edges_behind W H a.
Definition current (a : app) : Prop := forall i t, nth_error (a_nodes a) i = Some t -> modest (t_var t) ->
  pictured t (a_ignore a) (a_evidence a) (Z.of_nat i =? a_selected a) (a_state a).
Record app_ok (a : app) : Prop := {
  ao_core : core a;
  ao_screen : exists W H, 1 <= W /\ 1 <= H /\ on_screen W H a;
  ao_current : current a
}.

Lemma node_in a t : core a -> In t (a_nodes a) -> exists v, In v (n_vars n) /\ node_of v t.
Proof.
  intros Hc Ht. pose proof (co_nodes a Hc) as F. revert Ht. induction F as [|v t' l l' Hv F IH]; intros Ht; [destruct Ht|]. destruct Ht as [->|Ht]; [exists v; split; auto; left; auto|].
  destruct (IH Ht) as (w & Hw & Hn). exists w. split; auto. right. auto.
Qed.
Lemma same_shown ig ev v t : node_of v t -> shown_numbers n ig ev (t_var t) = shown_numbers n ig ev v.
Proof. intros Hv. apply (re_shown n n (relaid_refl n)). apply (nd_same _ _ Hv). Qed.
Lemma numbers_node a v t : core a -> In v (n_vars n) -> node_of v t -> numbers_of a t = shown_numbers n (a_ignore a) (a_evidence a) (t_var t).
Proof.
  intros Hc Hv Hn. rewrite (same_shown _ _ v t Hn). unfold numbers_of, t_name. destruct (nd_same _ _ Hn) as (-> & _). rewrite (co_numbers a Hc), (proj2 (var_named_in n Hwf (nv_name v) v)) by auto. reflexivity.
Qed.
Lemma fits_same v w p : same_node v w -> fits v p -> fits w p.
Proof. intros (_ & Et & Eo & _). unfold fits, is_utility. rewrite Et, Eo. auto. Qed.
Lemma node_fits ig ev v t : valid_observations n ev -> In v (n_vars n) -> node_of v t -> fits (t_var t) (shown_numbers n ig ev (t_var t)).
Proof. intros Hev Hv Hn. rewrite (same_shown _ _ v t Hn). eapply fits_same; [apply (nd_same _ _ Hn)|]. apply shown_fits; auto. Qed.
Lemma canvas_drawable a W H : core a -> nodes_ok W H (a_nodes a) -> shaped W H (a_canvas a) -> shaped W H (a_colors a) -> drawable W H a.
Proof.
  intros Hc H1 H2 H3. split; [auto|]. split; [auto|]. split; [auto|]. intros t Ht. destruct (node_in a t Hc Ht) as (v & Hv & Hn). rewrite (numbers_node a v t) by auto. eapply node_fits; eauto. apply (co_evidence a Hc).
Qed.

Lemma node_of_runes v t g : node_of v t -> node_ok (with_runes t g) -> node_of v (with_runes t g).
Proof. intros [x1 x2 x3 x4 x5 x6 x7] Hg. constructor; auto. Qed.

(** Drawing again gives the picture of a new node. *)
Lemma redrawn_pictured ev0 ig0 v t sel st t' : valid_observations n ev0 -> In v (n_vars n) -> node_of v t -> sketched t -> modest (t_var t) ->
  render_node t (shown_numbers n ig0 ev0 (t_var t)) sel st (has_key ev0 (t_name t)) = Ok t' -> (exists g, t' = with_runes t g) -> pictured t' ig0 ev0 sel st.
Proof.
  intros Hev0 Hv Hn Hsk Hm Er [g ->]. pose proof (node_fits ig0 ev0 v t Hev0 Hv Hn) as Hf0.
  destruct (new_node_ok (t_var t) (t_factor t) (nd_color _ _ Hn)) as (u & Eu & Hu & Uv & Uf & Ub).
  assert (Hlu : looks t u).
  { split; [auto|]. split; [rewrite (no_bars _ (nd_ok _ _ Hn)), (no_bars _ Hu), Uv; auto|]. split; [rewrite (no_w _ (nd_ok _ _ Hn)), (no_w _ Hu), Uv; auto|rewrite (no_h _ (nd_ok _ _ Hn)), (no_h _ Hu), Uv; auto]. }
  destruct (Hsk Hm) as [(u1 & E1 & Er1)|(ig & ev & sel1 & st1 & Hev & u1 & u2 & E1 & E2 & Er2)].
  - assert (u1 = u) by congruence. subst u1. destruct (render_looks t u (shown_numbers n ig0 ev0 (t_var t)) sel st (has_key ev0 (t_name t)) (nd_ok _ _ Hn) Hu Hf0 Hlu Er1) as (g' & G1 & G2).
    rewrite Er in G1. injection G1 as ->. exists u, (with_runes u g'). auto.
  - assert (u1 = u) by congruence. subst u1. pose proof (node_fits ig ev v t Hev Hv Hn) as Hf. rewrite <- Uv in Hf.
    destruct (render_node_ok u (shown_numbers n ig ev (t_var u)) sel1 st1 (has_key ev (t_name t)) Hu Hf) as (gu & Gu & Hgu & _). rewrite Uv in Gu. rewrite E2 in Gu. injection Gu as ->.
    assert (Hlu2 : looks t (with_runes u gu)) by exact Hlu.
    destruct (render_looks t (with_runes u gu) (shown_numbers n ig0 ev0 (t_var t)) sel st (has_key ev0 (t_name t)) (nd_ok _ _ Hn) Hgu Hf0 Hlu2 Er2) as (g' & G1 & G2).
    rewrite Er in G1. injection G1 as ->.
    assert (Hfr : render_node (with_runes u gu) (shown_numbers n ig0 ev0 (t_var t)) sel st (has_key ev0 (t_name t)) = render_node u (shown_numbers n ig0 ev0 (t_var t)) sel st (has_key ev0 (t_name t))).
    { rewrite Uv in Hf. apply (render_node_fresh u (shown_numbers n ig ev (t_var t)) sel1 st1 (has_key ev (t_name t)) (shown_numbers n ig0 ev0 (t_var t)) sel st (has_key ev0 (t_name t)) (with_runes u gu)); auto.
      - intros Hut. apply Hm; auto. rewrite <- Uv. auto.
      - intros Hut. apply Hm; auto. rewrite <- Uv. auto.
      - rewrite Uv. auto.
      - rewrite Uv. auto.
      - rewrite !(same_shown _ _ v t Hn). rewrite !shown_count by auto. auto. }
    rewrite Hfr in G2. exists u, (with_runes (with_runes u gu) g'). auto.
Qed.

Theorem render_app isUpdate a : core a -> canvas_ok a -> (isUpdate = true -> updatable a) ->
  exists nodes' c d l, let a' := set_text (set_canvas (set_nodes a nodes') c d) l in render isUpdate a = Ok a' /\ app_ok a' /\ map t_var nodes' = map t_var (a_nodes a) /\ map frame nodes' = map frame (a_nodes a).
Proof.
  intros Hc (W & H & HW & HH & Hn & Hs1 & Hs2) Hup.
  assert (Hex : exists W H, 1 <= W /\ 1 <= H /\ drawable W H a /\ (isUpdate = true -> known_cells W H (a_colors a) /\ edges_behind W H a)).
  { destruct isUpdate.
    - destruct (Hup eq_refl) as (W' & H' & HW' & HH' & Hn' & Hs1' & Hs2' & Hk & Hb). exists W', H'. split; [auto|]. split; [auto|]. split; [|auto]. apply canvas_drawable; auto.
    - exists W, H. split; [auto|]. split; [auto|]. split; [|discriminate]. apply canvas_drawable; auto. }
  clear W H HW HH Hn Hs1 Hs2 Hup. destruct Hex as (W & H & HW & HH & Hdr & Hup).
  destruct (render_ok W H isUpdate a HH Hdr Hup) as (nodes' & c & d & l & E & Hos & HF). exists nodes', c, d, l. cbv zeta. split; auto.
  assert (HN : forall i t t', nth_error (a_nodes a) i = Some t -> nth_error nodes' i = Some t' -> redrawn a (Z.of_nat i) t t').
  { intros i t t' Ht Ht'. assert (G : forall l o, Forall2 (fun '((i, t) : Z * tnode) t' => redrawn a i t t') l o -> forall k j u u', nth_error l k = Some (j, u) -> nth_error o k = Some u' -> redrawn a j u u').
    { intros l0 o F. induction F as [|[j u] u' l0 o Hr F IH]; intros [|k] j' w w' A B; try discriminate; [injection A as <- <-; injection B as <-; auto|eapply IH; eauto]. }
    eapply G; [exact HF| |exact Ht']. rewrite numbered_at, Ht. reflexivity. }
  assert (Hlen : List.length nodes' = List.length (a_nodes a)).
  { assert (G : forall l o, Forall2 (fun '((i, t) : Z * tnode) t' => redrawn a i t t') l o -> List.length o = List.length l) by (intros l0 o F; induction F; simpl; congruence). rewrite (G _ _ HF). apply numbered_len. }
  assert (HV : map t_var nodes' = map t_var (a_nodes a)).
  { apply nth_ext_sget; [unfold zlen; rewrite !map_length; lia|]. intros i Hi. unfold zlen in Hi. rewrite map_length in Hi. rewrite <- (Z2Nat.id i) by lia. rewrite !sget_nat, !nth_error_map.
    destruct (nth_error nodes' (Z.to_nat i)) as [t'|] eqn:E1, (nth_error (a_nodes a) (Z.to_nat i)) as [t|] eqn:E2; auto; [|apply nth_error_None in E2; lia|apply nth_error_None in E1; lia].
    destruct (HN _ _ _ E2 E1) as (_ & g & ->). reflexivity. }
  assert (HFr : map frame nodes' = map frame (a_nodes a)).
  { symmetry. rewrite <- (map_snd_numbered (a_nodes a)). eapply redrawn_frames; eauto. }
  assert (Hnodes : forall i v t', nth_error (n_vars n) i = Some v -> nth_error nodes' i = Some t' -> node_of v t' /\ exists t, nth_error (a_nodes a) i = Some t /\ node_of v t /\ redrawn a (Z.of_nat i) t t' /\ In v (n_vars n)).
  { intros i v t' Hv Ht'. assert (Hvt : exists t, nth_error (a_nodes a) i = Some t /\ node_of v t).
    { pose proof (co_nodes a Hc) as F. clear -F Hv. revert i Hv. induction F as [|v0 t0 l l' H0 F IH]; intros [|i] Hv; try discriminate; [injection Hv as ->; exists t0; auto|apply IH; auto]. }
    destruct Hvt as (t & Ht & Hno). pose proof (HN _ _ _ Ht Ht') as Hr. split.
    - destruct Hr as (_ & g & ->). apply node_of_runes; auto. apply (os_nodes _ _ _ Hos). eapply nth_error_In; eauto.
    - exists t. split; auto. split; auto. split; auto. eapply nth_error_In; eauto. }
  assert (Hl2 : List.length (n_vars n) = List.length nodes').
  { rewrite Hlen. pose proof (co_nodes a Hc) as F. clear -F. induction F; simpl; congruence. }
  assert (Hpic : forall i t', nth_error nodes' i = Some t' -> modest (t_var t') -> pictured t' (a_ignore a) (a_evidence a) (Z.of_nat i =? a_selected a) (a_state a)).
  { intros i t' Ht' Hm. destruct (nth_error (n_vars n) i) as [v|] eqn:Ev; [|apply nth_error_None in Ev; assert (i < List.length nodes')%nat by (apply nth_error_Some; congruence); lia].
    destruct (Hnodes i v t' Ev Ht') as (_ & t & Ht & Hno & (Hr & g & ->) & Hv). rewrite (numbers_node a v t Hc Hv Hno) in Hr.
    eapply redrawn_pictured; eauto; [apply (co_evidence a Hc)|apply (co_sketched a Hc); eapply nth_error_In; eauto]. }
  split; [|auto]. constructor.
  - destruct Hc as [c1 c2 c3 c4 c5 c6 c7 c8 c9]. constructor; auto.
    + cbn [a_nodes set_text set_canvas set_nodes].
      assert (G : forall l l', List.length l = List.length l' -> (forall i v t, nth_error l i = Some v -> nth_error l' i = Some t -> node_of v t) -> Forall2 node_of l l').
      { induction l0 as [|v0 l0 IH]; intros [|t0 l'] El Hi; try discriminate; constructor; [apply (Hi 0%nat); auto|apply IH; auto; intros i; apply (Hi (S i))]. }
      apply G; auto. intros i v t A B. eapply Hnodes; eauto.
    + cbn [a_nodes a_net set_text set_canvas set_nodes]. apply frames_bounds in HFr. clear -c4 HFr. revert nodes' HFr. induction c4 as [|v t l l' Hp F IH]; intros [|t' nodes'] HFr; try discriminate; constructor.
      * cbn [map] in HFr. injection HFr as -> _. auto.
      * apply IH. cbn [map] in HFr. congruence.
    + cbn [a_nodes a_selected set_text set_canvas set_nodes]. unfold zlen in *. rewrite Hlen. auto.
    + cbn [a_nodes set_text set_canvas set_nodes]. intros t' Ht' Hm. right. apply In_nth_error in Ht'. destruct Ht' as (i & Hi). exists (a_ignore a), (a_evidence a), (Z.of_nat i =? a_selected a), (a_state a). split; auto.
  - exists W, H. auto.
  - exact Hpic.
Qed.
End Session.
