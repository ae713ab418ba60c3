(** Drawing of the canvas. *)
From Coq Require Import ZArith List Bool String Lia.
From Verif Require Import Num GoBase VarModel GoFacts CliModel SpecCli CliFacts NetModel TrainFacts TuiModel SpecApp TuiGrid TuiDraw.
Import ListNotations.
Open Scope string_scope.
Open Scope list_scope.
Open Scope Z_scope.

(** The bounds are on a canvas of width [W] and height [H]. *)
Definition on_canvas (W H : Z) (b : bounds) : Prop := 0 <= b_x b /\ 0 <= b_y b /\ b_x b + b_w b <= W /\ b_y b + b_h b <= H.
Definition real (b : bounds) : Prop := 1 <= b_w b /\ 1 <= b_h b.

(** ** The size of the canvas *)
Lemma canvas_bounds_map nodes : canvas_bounds nodes = fold_left b_extend (map t_bounds nodes) (mkBounds 0 0 1 1).
Proof. unfold canvas_bounds. generalize (mkBounds 0 0 1 1). induction nodes as [|t l IH]; intros b; simpl; auto. Qed.
Lemma canvas_size nodes : (forall t, In t nodes -> 0 <= b_x (t_bounds t) /\ 0 <= b_y (t_bounds t)) ->
  let c := canvas_bounds nodes in b_x c = 0 /\ b_y c = 0 /\ 1 <= b_w c /\ 1 <= b_h c /\ forall t, In t nodes -> on_canvas (b_w c) (b_h c) (t_bounds t).
Proof.
  intros Hpos. cbv zeta. rewrite canvas_bounds_map.
  assert (G : forall l b, b_x b = 0 -> b_y b = 0 -> 1 <= b_w b -> 1 <= b_h b -> (forall o, In o l -> 0 <= b_x o /\ 0 <= b_y o) ->
    let c := fold_left b_extend l b in b_x c = 0 /\ b_y c = 0 /\ b_w b <= b_w c /\ b_h b <= b_h c /\ forall o, In o l -> on_canvas (b_w c) (b_h c) o).
  { induction l as [|o l IH]; intros b Hx Hy Hw Hh Hl; cbv zeta; cbn [fold_left].
    - split; [auto|]. split; [auto|]. split; [lia|]. split; [lia|]. intros o [].
    - destruct (extend_edges b o) as (E1 & E2 & E3 & E4). destruct (Hl o (or_introl eq_refl)) as [O1 O2].
      destruct (IH (b_extend b o)) as (I1 & I2 & I3 & I4 & I5); try lia; [intros p Hp; apply Hl; right; auto|].
      split; auto. split; auto. split; [lia|]. split; [lia|]. intros p [<-|Hp]; [unfold on_canvas; lia|auto]. }
  destruct (G (map t_bounds nodes) (mkBounds 0 0 1 1)) as (I1 & I2 & I3 & I4 & I5); cbn [b_x b_y b_w b_h]; try lia.
  - intros o Ho. apply in_map_iff in Ho. destruct Ho as (t & <- & Ht). auto.
  - cbn [b_w b_h] in I3, I4. split; [auto|]. split; [auto|]. split; [lia|]. split; [lia|]. intros t Ht. apply I5. apply in_map. auto.
Qed.

(** ** Edges *)
Lemma zquot_between a b : 0 <= a < b -> a <= Z.quot (a + b) 2 < b.
Proof. intros H. rewrite Z.quot_div_nonneg by lia. split; [apply Z.div_le_lower_bound; lia|apply Z.div_lt_upper_bound; lia]. Qed.

Ltac in_edge H := repeat (apply in_app_iff in H; destruct H as [H|H]);
  try (apply in_map_iff in H; let j := fresh "j" in let E := fresh "E" in let Hj := fresh "Hj" in destruct H as (j & E & Hj); try (rewrite <- in_rev in Hj); apply in_zrange in Hj; injection E as <- <- <-; lia);
  try (cbn [In] in H; destruct H as [H|[]]; injection H as <- <- <-; lia).

Theorem render_edge_ok W H b1 b2 : on_canvas W H b1 -> on_canvas W H b2 -> real b1 -> real b2 -> exists V, paints W H (render_edge b1 b2) V.
Proof.
  intros (X1 & Y1 & R1 & D1) (X2 & Y2 & R2 & D2) [W1 H1] [W2 H2]. unfold render_edge.
  destruct ((b_x b2 <? b_x b1 + b_w b1) && (b_x b1 <? b_x b2 + b_w b2)) eqn:Eh; destruct ((b_y b2 <? b_y b1 + b_h b1) && (b_y b1 <? b_y b2 + b_h b2)) eqn:Ev.
  - exists blank. apply paints_none.
  - unfold edge_vertical. pose proof (zquot_between (Z.max (b_x b1) (b_x b2)) (Z.min (b_x b1 + b_w b1) (b_x b2 + b_w b2)) ltac:(lia)) as Hm.
    set (xm := Z.quot _ 2) in *. clearbody xm. rewrite !andb_true_iff in *. rewrite andb_false_iff in Ev. destruct (Z.ltb_spec (b_y b1) (b_y b2)); eexists; apply paints_puts; intros y x r Hin; in_edge Hin.
  - unfold edge_horizontal. pose proof (zquot_between (Z.max (b_y b1) (b_y b2)) (Z.min (b_y b1 + b_h b1) (b_y b2 + b_h b2)) ltac:(lia)) as Hm.
    set (ym := Z.quot _ 2) in *. clearbody ym. rewrite !andb_true_iff in *. rewrite andb_false_iff in Eh. destruct (Z.ltb_spec (b_x b1) (b_x b2)); eexists; apply paints_puts; intros y x r Hin; in_edge Hin.
  - unfold edge_corner. rewrite andb_false_iff in Eh, Ev. destruct (Z.ltb_spec (b_y b1) (b_y b2)), (Z.ltb_spec (b_x b1) (b_x b2)); eexists; apply paints_puts; intros y x r Hin; in_edge Hin.
Qed.

Lemma nodes_by_name_range nodes x : nodes <> [] -> 0 <= nodes_by_name nodes x < zlen nodes.
Proof.
  intros Hne. unfold nodes_by_name.
  assert (Hz : 0 < zlen nodes) by (destruct nodes; [congruence|unfold zlen; simpl; lia]).
  assert (G : forall l m, (forall i t, In (i, t) l -> 0 <= i < zlen nodes) -> (forall y i, sget_map m y = Some i -> 0 <= i < zlen nodes) ->
    forall y i, sget_map (fold_left (fun m '((i, t) : Z * tnode) => sset_map m (t_name t) i) l m) y = Some i -> 0 <= i < zlen nodes).
  { induction l as [|[i t] l IH]; intros m Hl Hm; cbn [fold_left]; auto. apply IH; [intros j u Hu; eapply Hl; right; eauto|].
    intros y j Hy. destruct (string_dec y (t_name t)) as [->|Hn].
    - rewrite mget_mset_same in Hy by apply String.eqb_eq. injection Hy as <-. eapply Hl. left; eauto.
    - rewrite mget_mset_other in Hy by (auto; apply String.eqb_eq). eauto. }
  destruct (sget_map _ x) as [i|] eqn:E; [|lia]. eapply G; [| |exact E].
  - intros j t Hin. apply in_numbered in Hin. tauto.
  - simpl. discriminate.
Qed.

Definition nodes_ok (W H : Z) (nodes : list tnode) : Prop :=
  forall t, In t nodes -> node_ok t /\ on_canvas W H (t_bounds t) /\ t_factor t <> None.
Lemma node_real t : node_ok t -> real (t_bounds t).
Proof. intros Hn. destruct (node_sizes t Hn) as (? & ? & _). split; lia. Qed.

Theorem render_edges_ok W H nodes : nodes_ok W H nodes -> exists V, paints W H (render_edges nodes) V.
Proof.
  intros Hok. destruct nodes as [|t0 l0] eqn:En; [exists blank; apply paints_none|]. rewrite <- En in *. assert (Hne : nodes <> []) by congruence. clear En. unfold render_edges.
  set (F := fun (g : grid) (t : tnode) => match t_factor t with None => Panic PNil | Some f => foldM (fun g p => let! n1 := sget nodes (nodes_by_name nodes p) in render_edge (t_bounds n1) (t_bounds t) g) g (nf_given f) end).
  assert (G : forall l, incl l nodes -> exists V, paints W H (fun g => foldM F g l) V).
  { induction l as [|t l IH]; intros Hi; cbn [foldM]; [exists blank; apply paints_none|].
    destruct IH as (V2 & P2); [intros u Hu; apply Hi; right; auto|].
    assert (P1 : exists V1, paints W H (fun g => F g t) V1).
    { destruct (Hok t (Hi t (or_introl eq_refl))) as (Hn & Hc & Hf). unfold F. destruct (t_factor t) as [f|]; [|congruence].
      induction (nf_given f) as [|p ps IHp]; cbn [foldM]; [exists blank; apply paints_none|]. destruct IHp as (V3 & P3).
      destruct (sget_in nodes (nodes_by_name nodes p)) as (n1 & E1 & Hin1); [apply nodes_by_name_range; auto|].
      destruct (Hok n1 Hin1) as (Hn1 & Hc1 & _).
      destruct (render_edge_ok W H (t_bounds n1) (t_bounds t) Hc1 Hc (node_real _ Hn1) (node_real _ Hn)) as (V4 & P4).
      exists (over V3 V4). eapply paints_ext; [| |apply (paints_seq W H _ _ _ _ P4 P3)]; [|reflexivity]. intros g. rewrite E1. reflexivity. }
    destruct P1 as (V1 & P1). exists (over V2 V1). apply paints_seq; auto. }
  apply G. intros t Ht. auto.
Qed.

(** ** Copying nodes to the canvas *)
Definition image (b : bounds) (lines : grid) : layer := fun y x =>
  if b_contains b x y then match px lines (y - b_y b) (x - b_x b) with Ok r => Some r | _ => None end else None.
Lemma paint_ok W H b lines : on_canvas W H b -> shaped (b_w b) (b_h b) lines -> paints W H (paint b lines) (image b lines).
Proof.
  intros (X & Y & R & D) [S1 S2]. unfold paint.
  eapply paints_ext; [| |apply (paints_list W H (fun g '((i, line) : Z * list Z) => copy2 g (b_y b + i) (b_x b) None line) (fun '((i, line) : Z * list Z) => strip (b_y b + i) (b_x b) W line) (combine (zrange 0 (zlen lines)) lines))].
  - reflexivity.
  - intros y x Hy Hx. unfold image, b_contains. set (L := combine (zrange 0 (zlen lines)) lines).
    assert (Hrow : forall i line, In (i, line) L -> 0 <= i < b_h b /\ sget lines i = Ok line /\ zlen line = b_w b).
    { intros i line Hin. apply in_numbered in Hin. destruct Hin as [Hi Hl]. split; [lia|]. split; [|apply S2; eapply nth_error_In; eauto].
      unfold sget. replace (i <? 0) with false by lia. rewrite Hl. auto. }
    assert (Hval : forall l, incl l L -> forall r, layers (fun '((i, line) : Z * list Z) => strip (b_y b + i) (b_x b) W line) l y x = Some r ->
       b_y b <= y < b_y b + b_h b /\ b_x b <= x < b_x b + b_w b /\ px lines (y - b_y b) (x - b_x b) = Ok r).
    { induction l as [|[i line] l IH]; intros Hi r; [discriminate|]. rewrite layers_cons. destruct (layers _ l y x) as [r'|] eqn:El.
      - intros E. injection E as <-. apply IH; auto. intros p Hp. apply Hi. right. auto.
      - intros E. destruct (Hrow i line (Hi _ (or_introl eq_refl))) as (Hi2 & Hl & Hw). assert (Hs : strip (b_y b + i) (b_x b) W line y x <> None) by congruence.
        apply strip_some in Hs. destruct Hs as (-> & Hs1 & Hs2). rewrite Hw in Hs2. split; [lia|]. split; [lia|]. replace (b_y b + i - b_y b) with i by lia.
        unfold px. rewrite Hl. cbn [gbind]. unfold strip in E. destruct (_ && _ && _ && _); [|discriminate]. unfold sget. replace (x - b_x b <? 0) with false by lia. rewrite E. auto. }
    destruct (layers _ L y x) as [r|] eqn:El.
    + destruct (Hval L (incl_refl _) r El) as (A1 & A2 & A3). rewrite A3. replace ((b_x b <=? x) && _ && _ && _) with true; auto. symmetry. rewrite !andb_true_iff. lia.
    + destruct ((b_x b <=? x) && _ && _ && _) eqn:Ec; auto. exfalso. rewrite !andb_true_iff in Ec.
      destruct (sget_in lines (y - b_y b)) as (line & Hl & Hin); [lia|].
      assert (HinL : In (y - b_y b, line) L).
      { apply sget_inv in Hl. destruct Hl as [Hl1 Hl2]. eapply nth_error_In with (n := Z.to_nat (y - b_y b)). unfold L. rewrite numbered_at, Hl2. cbn [option_map]. do 2 f_equal. lia. }
      assert (Hn : layers (fun '((i, line) : Z * list Z) => strip (b_y b + i) (b_x b) W line) L y x <> None); [|congruence].
      apply layers_some. eexists. split; [exact HinL|]. cbv beta iota. apply strip_some. rewrite (S2 line Hin). lia.
  - intros [i line] Hin. apply in_numbered in Hin. destruct Hin as [Hi Hl]. apply nth_error_In in Hl. apply S2 in Hl. assert (0 <= zlen line) by (unfold zlen; lia).
    apply (paints_copy2 W H (b_y b + i) (b_x b) None line); cbn; lia.
Qed.
Lemma image_some b lines y x : shaped (b_w b) (b_h b) lines -> (image b lines y x <> None <-> b_contains b x y = true).
Proof.
  intros Hs. unfold image. destruct (b_contains b x y) eqn:E; [|split; congruence]. split; auto. intros _. unfold b_contains in E. rewrite !andb_true_iff in E.
  destruct (px_ok (b_w b) (b_h b) lines (y - b_y b) (x - b_x b) Hs) as (r & ->); [lia|lia|discriminate].
Qed.

(** ** All nodes *)
Definition picture (t : tnode) : layer := image (t_bounds t) (t_runes t).
Definition tint (t : tnode) : layer := image (t_bounds t) (t_colors t).
Definition numbers_of (a : app) (t : tnode) : list xnum := slice_of (sget_map (a_marginals a) (t_name t)).
(** [t'] is [t] drawn again, in the state [a], as the node with number [i]. *)
Definition redrawn (a : app) (i : Z) (t t' : tnode) : Prop :=
  render_node t (numbers_of a t) (i =? a_selected a) (a_state a) (has_key (a_evidence a) (t_name t)) = Ok t' /\ exists g, t' = with_runes t g.

Definition node_step (a : app) '((nodes, c, d) : list tnode * grid * grid) '((i, t) : Z * tnode) : gores (list tnode * grid * grid) :=
  let! t := render_node t (slice_of (sget_map (a_marginals a) (t_name t))) (i =? a_selected a) (a_state a) (has_key (a_evidence a) (t_name t)) in
  let! c := paint (t_bounds t) (t_runes t) c in
  let! d := paint (t_bounds t) (t_colors t) d in
  Ok ((nodes ++ [t])%list, c, d).

Lemma nodes_fold W H a : forall (l : list (Z * tnode)),
  (forall i t, In (i, t) l -> node_ok t /\ on_canvas W H (t_bounds t) /\ fits (t_var t) (numbers_of a t)) ->
  forall acc c d, shaped W H c -> shaped W H d ->
  exists out c' d', foldM (node_step a) (acc, c, d) l = Ok ((acc ++ out)%list, c', d') /\ shaped W H c' /\ shaped W H d' /\
    Forall2 (fun '((i, t) : Z * tnode) t' => redrawn a i t t' /\ node_ok t') l out /\
    (forall y x, 0 <= y < H -> 0 <= x < W -> px c' y x = match layers picture out y x with Some r => Ok r | None => px c y x end) /\
    (forall y x, 0 <= y < H -> 0 <= x < W -> px d' y x = match layers tint out y x with Some r => Ok r | None => px d y x end).
Proof.
  induction l as [|[i t] l IH]; intros Hl acc c d Hc Hd; cbn [foldM].
  - exists [], c, d. rewrite app_nil_r. split; [auto|]. split; [auto|]. split; [auto|]. split; [constructor|]. split; intros; reflexivity.
  - destruct (Hl i t (or_introl eq_refl)) as (Hn & Ho & Hf).
    destruct (render_node_ok t (numbers_of a t) (i =? a_selected a) (a_state a) (has_key (a_evidence a) (t_name t)) Hn Hf) as (g & Er & Hg & _).
    destruct (paint_ok W H (t_bounds t) g Ho (no_runes _ Hg) c Hc) as (c1 & Ec & Hc1 & Pc).
    destruct (paint_ok W H (t_bounds t) (t_colors t) Ho (no_shape _ Hn) d Hd) as (d1 & Ed & Hd1 & Pd).
    destruct (IH (fun i t Hin => Hl i t (or_intror Hin)) (acc ++ [with_runes t g])%list c1 d1 Hc1 Hd1) as (out & c' & d' & E & Hc' & Hd' & HF & Qc & Qd).
    exists (with_runes t g :: out), c', d'. split; [|split; [auto|split; [auto|split; [|split]]]].
    + unfold node_step at 1. unfold numbers_of in Er. rewrite Er. cbn [gbind]. change (t_bounds (with_runes t g)) with (t_bounds t). change (t_runes (with_runes t g)) with g. change (t_colors (with_runes t g)) with (t_colors t).
      rewrite Ec. cbn [gbind]. rewrite Ed. cbn [gbind]. rewrite E. rewrite <- app_assoc. reflexivity.
    + constructor; auto. split; auto. split; [exact Er|eauto].
    + intros y x Hy Hx. rewrite Qc, layers_cons by auto. destruct (layers picture out y x); auto. rewrite Pc by auto. reflexivity.
    + intros y x Hy Hx. rewrite Qd, layers_cons by auto. destruct (layers tint out y x); auto. rewrite Pd by auto. reflexivity.
Qed.

Definition drawable (W H : Z) (a : app) : Prop :=
  nodes_ok W H (a_nodes a) /\ shaped W H (a_canvas a) /\ shaped W H (a_colors a) /\ forall t, In t (a_nodes a) -> fits (t_var t) (numbers_of a t).

Theorem render_nodes_ok W H a : drawable W H a ->
  exists nodes' c d, render_nodes a = Ok (set_canvas (set_nodes a nodes') c d) /\ nodes_ok W H nodes' /\ shaped W H c /\ shaped W H d /\
    Forall2 (fun '((i, t) : Z * tnode) t' => redrawn a i t t') (combine (zrange 0 (zlen (a_nodes a))) (a_nodes a)) nodes' /\
    (forall y x, 0 <= y < H -> 0 <= x < W -> px c y x = match layers picture nodes' y x with Some r => Ok r | None => px (a_canvas a) y x end) /\
    (forall y x, 0 <= y < H -> 0 <= x < W -> px d y x = match layers tint nodes' y x with Some r => Ok r | None => px (a_colors a) y x end).
Proof.
  intros (Hn & Hc & Hd & Hf).
  destruct (nodes_fold W H a (combine (zrange 0 (zlen (a_nodes a))) (a_nodes a))) with (acc := @nil tnode) (c := a_canvas a) (d := a_colors a) as (out & c & d & E & Hc' & Hd' & HF & Pc & Pd); auto.
  - intros i t Hin. apply in_numbered in Hin. destruct Hin as [_ Hin]. apply nth_error_In in Hin. destruct (Hn t Hin) as (A & B & _). auto.
  - exists out, c, d. split.
    + unfold render_nodes. change (foldM _ ([], a_canvas a, a_colors a) _) with (foldM (node_step a) ([], a_canvas a, a_colors a) (combine (zrange 0 (zlen (a_nodes a))) (a_nodes a))). rewrite E. reflexivity.
    + split; [|split; [auto|split; [auto|split; [|auto]]]].
      * assert (G : forall l o, Forall2 (fun '((i, t) : Z * tnode) t' => redrawn a i t t' /\ node_ok t') l o -> (forall i t, In (i, t) l -> In t (a_nodes a)) -> forall t', In t' o -> node_ok t' /\ exists t g, In t (a_nodes a) /\ t' = with_runes t g).
        { intros l o F. induction F as [|[i t] t' l o [[_ [g Hg]] Ht] F IH]; intros Hin u; [intros []|]. intros [<-|Hu]; [|apply IH; auto; intros; eapply Hin; right; eauto].
          split; auto. exists t, g. split; auto. eapply Hin. left; eauto. }
        intros t' Ht'. destruct (G _ _ HF) with (t' := t') as (A & t & g & Hin & ->); auto.
        { intros i t Hin. apply in_numbered in Hin. destruct Hin as [_ Hin]. eapply nth_error_In; eauto. }
        destruct (Hn t Hin) as (_ & B & C). auto.
      * clear -HF. induction HF as [|[i t] t' l o [H1 H2] F IH]; constructor; auto.
Qed.

(** ** The text *)
Definition known_cells (W H : Z) (d : grid) : Prop := forall y x, 0 <= y < H -> 0 <= x < W -> exists c, px d y x = Ok c /\ 0 <= c < 16.
Lemma color_tag_ok c : 0 <= c < 16 -> exists s, sget color_tags c = Ok s.
Proof. intros Hc. destruct (sget_in color_tags c) as (s & E & _); [|eauto]. replace (zlen color_tags) with 16 by (vm_compute; reflexivity). auto. Qed.
Lemma visible_cons l : exists line more, visible l = line :: more.
Proof. induction l as [|[s|r|] l (line & more & IH)]; cbn [visible]; eauto. rewrite IH. eauto. Qed.
(** Runes written before the first line of a text. *)
Definition before (runes : list Z) (v : list (list Z)) : list (list Z) := match v with line :: rest => (runes ++ line) :: rest | [] => [runes] end.
Lemma line_tokens_ok : forall cells prev, (forall r c, In (r, c) cells -> 0 <= c < 16) -> exists l last, line_tokens prev cells = Ok (l, last) /\
  forall more, visible (l ++ more) = before (map fst cells) (visible more).
Proof.
  induction cells as [|[r c] cells IH]; intros prev Hk; cbn [line_tokens].
  - exists [], prev. split; auto. intros more. cbn [List.app map]. destruct (visible_cons more) as (line & rest & ->). reflexivity.
  - destruct (IH c) as (l & last & E & V); [intros; eapply Hk; right; eauto|].
    destruct (color_tag_ok c) as (s & Es); [eapply Hk; left; eauto|].
    assert (HV : forall more, visible (TRune r :: l ++ more) = before (map fst ((r, c) :: cells)) (visible more)).
    { intros more. cbn [visible]. rewrite V. destruct (visible_cons more) as (line & rest & ->). reflexivity. }
    destruct (negb (c =? prev)).
    + rewrite Es. cbn [gbind]. rewrite E. cbn [gbind]. eexists _, _. split; [reflexivity|]. intros more. cbn [List.app visible]. apply HV.
    + cbn [gbind]. rewrite E. cbn [gbind]. eexists _, _. split; [reflexivity|]. intros more. cbn [List.app]. apply HV.
Qed.
Lemma map_fst_combine {X Y} (l : list X) (m : list Y) : List.length l = List.length m -> map fst (combine l m) = l.
Proof. revert m. induction l as [|x l IH]; intros [|y m] E; simpl in *; try lia; auto. f_equal. apply IH. lia. Qed.
Lemma text_tokens_ok : forall lines prev, (forall c d, In (c, d) lines -> List.length c = List.length d /\ forall k, In k d -> 0 <= k < 16) ->
  exists l, text_tokens prev lines = Ok l /\ (lines <> [] -> visible l = map fst lines) /\ (lines = [] -> l = []).
Proof.
  induction lines as [|[c d] lines IH]; intros prev Hk; cbn [text_tokens].
  - exists []. split; auto. split; auto. congruence.
  - destruct (Hk c d (or_introl eq_refl)) as [Hl Hd].
    destruct (line_tokens_ok (combine c d) prev) as (l & last & E & V); [intros r k Hin; apply Hd; eapply in_combine_r; eauto|].
    destruct (IH last) as (m & Em & Vm & Nm); [intros; apply Hk; right; auto|].
    destruct (color_tag_ok color_white) as (s & Es); [unfold color_white; lia|].
    rewrite E. cbn [gbind]. rewrite Es. cbn [gbind]. rewrite Em. cbn [gbind]. eexists. split; [reflexivity|]. split; [|discriminate]. intros _.
    rewrite V, map_fst_combine by auto. cbn [visible map fst]. destruct lines as [|p lines].
    + rewrite Nm by auto. cbn. rewrite app_nil_r. auto.
    + cbn [List.app visible]. rewrite Vm by discriminate. cbn [before]. rewrite app_nil_r. auto.
Qed.
Lemma known_rows W H d : shaped W H d -> known_cells W H d -> known_colors d.
Proof.
  intros [S1 S2] Hk row c Hr Hc. pose proof (S2 row Hr) as Hw. apply In_nth_error in Hr. destruct Hr as (y & Hy). apply In_nth_error in Hc. destruct Hc as (x & Hx).
  assert (Ly : (y < List.length d)%nat) by (apply nth_error_Some; congruence). assert (Lx : (x < List.length row)%nat) by (apply nth_error_Some; congruence).
  unfold zlen in *. destruct (Hk (Z.of_nat y) (Z.of_nat x)) as (c' & E & Hc'); [lia|lia|].
  unfold px in E. rewrite (sget_nat d y), Hy in E. cbn [gbind] in E. rewrite (sget_nat row x), Hx in E. congruence.
Qed.
Theorem update_canvas_ok W H a : 1 <= H -> shaped W H (a_canvas a) -> shaped W H (a_colors a) -> known_cells W H (a_colors a) ->
  exists l, update_canvas a = Ok (set_text a l) /\ visible l = a_canvas a /\ text_tokens 0 (combine (a_canvas a) (a_colors a)) = Ok l.
Proof.
  intros HH Hc Hd Hk. pose proof (known_rows W H _ Hd Hk) as Hkc. destruct Hc as [C1 C2], Hd as [D1 D2]. unfold update_canvas.
  destruct (text_tokens_ok (combine (a_canvas a) (a_colors a)) 0) as (l & E & V & _).
  - intros c d Hin. pose proof (in_combine_l _ _ _ _ Hin) as Ic. pose proof (in_combine_r _ _ _ _ Hin) as Id. split; [|intros k Hk'; eapply Hkc; eauto].
    apply C2 in Ic. apply D2 in Id. unfold zlen in *. lia.
  - rewrite E. cbn [gbind]. exists l. split; auto. split; [|auto]. rewrite V, map_fst_combine; auto; [unfold zlen in *; lia|].
    destruct (a_canvas a), (a_colors a); unfold zlen in *; simpl in *; try lia. discriminate.
Qed.

(** ** Rendering *)
Lemma clear_cell W H z g y x : shaped W H g -> 0 <= y < H -> 0 <= x < W -> px (clear_grid z g) y x = Ok z.
Proof.
  intros [S1 S2] Hy Hx. unfold px, clear_grid. destruct (sget_in g y) as (row & E & Hin); [lia|]. apply sget_inv in E. destruct E as [_ E].
  rewrite <- (Z2Nat.id y) by lia. rewrite (sget_nat (map _ g)), nth_error_map, E. cbn [option_map gbind].
  apply S2 in Hin. rewrite <- (Z2Nat.id x) by lia. rewrite (sget_nat (map _ row)), nth_error_map.
  destruct (nth_error row (Z.to_nat x)) eqn:En; auto. apply nth_error_None in En. unfold zlen in Hin. lia.
Qed.
Lemma clear_same W H z g g' : shaped W H g -> shaped W H g' -> clear_grid z g = clear_grid z g'.
Proof. intros Hg Hg'. eapply grid_ext; [apply clear_shaped; eauto|apply clear_shaped; eauto|]. intros y x Hy Hx. rewrite !(clear_cell W H) by auto. auto. Qed.

Definition frame (t : tnode) : string * option (@nfactor xnum) * bounds := (t_name t, t_factor t, t_bounds t).
Lemma by_name_same nodes nodes' x : map frame nodes = map frame nodes' -> nodes_by_name nodes x = nodes_by_name nodes' x.
Proof.
  intros E. unfold nodes_by_name. assert (El : zlen nodes = zlen nodes') by (unfold zlen; rewrite <- (map_length frame nodes), E, map_length; auto). rewrite El.
  replace (fold_left _ (combine (zrange 0 (zlen nodes')) nodes) []) with (fold_left (fun m '((i, t) : Z * tnode) => sset_map m (t_name t) i) (combine (zrange 0 (zlen nodes')) nodes') []); auto.
  generalize (zrange 0 (zlen nodes')) (@nil (string * Z)). clear El. revert nodes' E. induction nodes as [|t l IH]; intros [|t' l'] E ns m; try discriminate; auto.
  cbn [map] in E. injection E as E1 E2 E3 E4. destruct ns as [|k ns]; auto. cbn [combine fold_left]. rewrite E1. apply IH. auto.
Qed.
Lemma frame_at nodes nodes' i : map frame nodes = map frame nodes' ->
  (let! t := sget nodes i in Ok (t_bounds t)) = (let! t := sget nodes' i in Ok (t_bounds t)).
Proof.
  intros E. unfold sget. destruct (i <? 0); auto. pose proof (f_equal (fun l => nth_error l (Z.to_nat i)) E) as En. cbv beta in En. rewrite !nth_error_map in En.
  destruct (nth_error nodes _), (nth_error nodes' _); cbn in En; try discriminate; auto. injection En as _ _ En. cbn. congruence.
Qed.
Lemma edges_same nodes nodes' g : map frame nodes = map frame nodes' -> render_edges nodes g = render_edges nodes' g.
Proof.
  intros E. unfold render_edges.
  assert (G : forall l l', map frame l = map frame l' -> forall g,
    foldM (fun g t => match t_factor t with None => Panic PNil | Some f => foldM (fun g p => let! n1 := sget nodes (nodes_by_name nodes p) in render_edge (t_bounds n1) (t_bounds t) g) g (nf_given f) end) g l =
    foldM (fun g t => match t_factor t with None => Panic PNil | Some f => foldM (fun g p => let! n1 := sget nodes' (nodes_by_name nodes' p) in render_edge (t_bounds n1) (t_bounds t) g) g (nf_given f) end) g l').
  { induction l as [|t l IH]; intros [|t' l'] El g0; try discriminate; auto. cbn [map] in El. injection El as E1 E2 E3 E4. cbn [foldM]. rewrite E2, E3.
    destruct (t_factor t') as [f|]; auto.
    match goal with |- gbind ?A _ = gbind ?B _ => assert (EA : A = B) end.
    { apply foldM_ext. intros g1 p. rewrite (by_name_same nodes nodes' p E). pose proof (frame_at nodes nodes' (nodes_by_name nodes' p) E) as Ef.
      destruct (sget nodes _), (sget nodes' _); cbn [gbind] in Ef |- *; try discriminate; injection Ef as Ef; rewrite Ef; auto. }
    rewrite EA. match goal with |- gbind ?A _ = _ => destruct A end; cbn [gbind]; [|auto|auto]. apply IH. auto. }
  apply G. auto.
Qed.

(** Where no node is, the canvas shows the edges. *)
Definition edges_behind (W H : Z) (a : app) : Prop :=
  exists bg, render_edges (a_nodes a) (clear_grid sym_empty (a_canvas a)) = Ok bg /\ shaped W H bg /\
    forall y x, 0 <= y < H -> 0 <= x < W -> layers picture (a_nodes a) y x = None -> px (a_canvas a) y x = px bg y x /\ px (a_colors a) y x = Ok color_white.
(** The canvas shows all nodes, in front of the edges, and the text is the canvas. *)
Record on_screen (W H : Z) (a : app) : Prop := {
  os_nodes : nodes_ok W H (a_nodes a);
  os_canvas : shaped W H (a_canvas a);
  os_colors : shaped W H (a_colors a);
  os_known : known_cells W H (a_colors a);
  os_edges : edges_behind W H a;
  os_picture : forall y x r, 0 <= y < H -> 0 <= x < W -> layers picture (a_nodes a) y x = Some r -> px (a_canvas a) y x = Ok r;
  os_text : visible (a_text a) = a_canvas a;
  os_tint : forall y x c, 0 <= y < H -> 0 <= x < W -> layers tint (a_nodes a) y x = Some c -> px (a_colors a) y x = Ok c;
  os_tokens : text_tokens 0 (combine (a_canvas a) (a_colors a)) = Ok (a_text a)
}.

Lemma redrawn_frames a : forall l out, Forall2 (fun '((i, t) : Z * tnode) t' => redrawn a i t t') l out -> map frame (map snd l) = map frame out.
Proof. intros l out F. induction F as [|[i t] t' l out [_ [g ->]] F IH]; auto. cbn [map]. rewrite IH. reflexivity. Qed.
Lemma map_snd_numbered {X} (l : list X) : map snd (combine (zrange 0 (zlen l)) l) = l.
Proof. assert (G : forall (ns : list Z) (l : list X), List.length ns = List.length l -> map snd (combine ns l) = l) by (induction ns as [|k ns IH]; intros [|x l'] E; simpl in *; try lia; auto; f_equal; apply IH; lia). apply G. rewrite zrange_length. unfold zlen. lia. Qed.
Lemma picture_cells W H nodes y x : nodes_ok W H nodes -> (layers picture nodes y x <> None <-> exists b, In b (map t_bounds nodes) /\ b_contains b x y = true).
Proof.
  intros Hn. rewrite layers_some. split.
  - intros (t & Hin & Ht). exists (t_bounds t). split; [apply in_map; auto|]. destruct (Hn t Hin) as (Hk & _). apply (image_some _ (t_runes t) y x (no_runes t Hk)). exact Ht.
  - intros (b & Hb & Hc). apply in_map_iff in Hb. destruct Hb as (t & <- & Hin). exists t. split; auto. destruct (Hn t Hin) as (Hk & _). apply (image_some _ (t_runes t) y x (no_runes t Hk)). auto.
Qed.
Lemma frames_bounds nodes nodes' : map frame nodes = map frame nodes' -> map t_bounds nodes = map t_bounds nodes'.
Proof. intros E. apply (f_equal (map snd)) in E. rewrite !map_map in E. exact E. Qed.
Lemma picture_none W H nodes nodes' y x : nodes_ok W H nodes -> nodes_ok W H nodes' -> map frame nodes = map frame nodes' -> layers picture nodes' y x = None -> layers picture nodes y x = None.
Proof.
  intros H1 H2 E E2. destruct (layers picture nodes y x) eqn:E1; auto. exfalso. assert (A : layers picture nodes y x <> None) by congruence.
  apply (picture_cells W H nodes y x H1) in A. rewrite (frames_bounds _ _ E) in A. apply (picture_cells W H nodes' y x H2) in A. congruence.
Qed.
Lemma tint_known W H nodes y x c : nodes_ok W H nodes -> layers tint nodes y x = Some c -> 0 <= c < 16.
Proof.
  intros Hn. induction nodes as [|t l IH]; [discriminate|]. rewrite layers_cons. destruct (layers tint l y x) as [c'|] eqn:E.
  - intros E1. injection E1 as <-. apply IH; auto. intros u Hu. apply Hn. right. auto.
  - unfold tint, image. destruct (b_contains _ _ _); [|discriminate]. unfold px. destruct (sget (t_colors t) (y - b_y (t_bounds t))) as [row| |] eqn:Er; cbn [gbind]; try discriminate.
    destruct (sget row (x - b_x (t_bounds t))) as [k| |] eqn:Ek; try discriminate. intros E1. injection E1 as <-.
    destruct (Hn t (or_introl eq_refl)) as (Hk & _). apply sget_inv in Er, Ek. eapply (no_colors t Hk); eapply nth_error_In; [apply Er|apply Ek].
Qed.

Lemma tint_none W H nodes y x : nodes_ok W H nodes -> layers picture nodes y x = None -> layers tint nodes y x = None.
Proof.
  intros Hn E. destruct (layers tint nodes y x) as [c|] eqn:Et; auto. exfalso. assert (A : layers tint nodes y x <> None) by congruence. apply layers_some in A. destruct A as (t & Hin & Ht).
  assert (B : layers picture nodes y x <> None); [|congruence]. apply (picture_cells W H nodes y x Hn). exists (t_bounds t). split; [apply in_map; auto|]. revert Ht. unfold tint, image. destruct (b_contains _ _ _); congruence.
Qed.
Theorem render_ok W H isUpdate a : 1 <= H -> drawable W H a ->
  (isUpdate = true -> known_cells W H (a_colors a) /\ edges_behind W H a) ->
  exists nodes' c d l, render isUpdate a = Ok (set_text (set_canvas (set_nodes a nodes') c d) l) /\
    on_screen W H (set_text (set_canvas (set_nodes a nodes') c d) l) /\
    Forall2 (fun '((i, t) : Z * tnode) t' => redrawn a i t t') (combine (zrange 0 (zlen (a_nodes a))) (a_nodes a)) nodes'.
Proof.
  intros HH Hdr Hup. pose proof Hdr as (Hn & Hc & Hd & Hf).
  set (a1r := if isUpdate then Ok a else let! c := render_edges (a_nodes a) (clear_grid sym_empty (a_canvas a)) in Ok (set_canvas a c (clear_grid color_white (a_colors a)))).
  assert (H1 : exists a1 bg, a1r = Ok a1 /\ (exists c0 d0, a1 = set_canvas a c0 d0) /\ drawable W H a1 /\ known_cells W H (a_colors a1) /\
     render_edges (a_nodes a) (clear_grid sym_empty (a_canvas a)) = Ok bg /\ shaped W H bg /\
     forall y x, 0 <= y < H -> 0 <= x < W -> layers picture (a_nodes a) y x = None -> px (a_canvas a1) y x = px bg y x /\ px (a_colors a1) y x = Ok color_white).
  { unfold a1r. destruct isUpdate.
    - destruct (Hup eq_refl) as (Hk & bg & Eb & Hb & Pb). exists a, bg. split; [auto|]. split; [exists (a_canvas a), (a_colors a); destruct a; reflexivity|]. auto.
    - destruct (render_edges_ok W H (a_nodes a) Hn) as (V & PV). destruct (PV (clear_grid sym_empty (a_canvas a)) (clear_shaped W H _ _ Hc)) as (bg & Eb & Hb & _).
      rewrite Eb. cbn [gbind]. exists (set_canvas a bg (clear_grid color_white (a_colors a))), bg. split; [auto|]. split; [eauto|].
      split; [|split; [|split; [auto|split; [auto|]]]].
      + split; [exact Hn|]. split; [exact Hb|]. split; [apply clear_shaped; auto|exact Hf].
      + intros y x Hy Hx. exists color_white. split; [apply (clear_cell W H); auto|unfold color_white; lia].
      + intros y x Hy Hx _. split; auto. apply (clear_cell W H); auto. }
  destruct H1 as (a1 & bg & Ea1 & (c0 & d0 & Eset) & Hdr1 & Hk1 & Eb & Hb & Pb).
  destruct (render_nodes_ok W H a1 Hdr1) as (nodes' & c & d & En & Hn' & Hc' & Hd' & HF & Pc & Pd).
  assert (Hk' : known_cells W H d).
  { intros y x Hy Hx. rewrite Pd by auto. destruct (layers tint nodes' y x) as [k|] eqn:Et; [|apply Hk1; auto]. exists k. split; auto. eapply tint_known; eauto. }
  destruct (update_canvas_ok W H (set_canvas (set_nodes a1 nodes') c d) HH Hc' Hd' Hk') as (l & El & Vl & Tl).
  assert (Ena : a_nodes a1 = a_nodes a) by (rewrite Eset; reflexivity).
  assert (EF : map frame (a_nodes a) = map frame nodes').
  { rewrite <- (map_snd_numbered (a_nodes a)). rewrite Ena in HF. eapply redrawn_frames; eauto. }
  exists nodes', c, d, l. split; [|split].
  - unfold render. fold a1r. rewrite Ea1. cbn [gbind]. rewrite En. cbn [gbind]. rewrite El. rewrite Eset. reflexivity.
  - split; try assumption.
    + exists bg. split; [|split; [auto|]].
      * cbn [a_nodes a_canvas set_text set_canvas set_nodes]. rewrite <- (edges_same _ _ _ EF). rewrite (clear_same W H sym_empty c (a_canvas a) Hc' Hc). auto.
      * cbn [a_nodes a_canvas set_text set_canvas set_nodes]. intros y x Hy Hx Hnone. rewrite Pc, Hnone by auto. cbn [a_colors set_text set_canvas set_nodes]. rewrite Pd, (tint_none W H nodes' y x Hn' Hnone) by auto. apply Pb; auto. eapply picture_none; eauto.
    + cbn [a_nodes a_canvas set_text set_canvas set_nodes]. intros y x r Hy Hx E. rewrite Pc, E by auto. auto.
    + cbn [a_nodes a_colors set_text set_canvas set_nodes]. intros y x r Hy Hx E. rewrite Pd, E by auto. auto.
  - rewrite Ena in HF. rewrite Eset in HF. exact HF.
Qed.

Theorem create_canvas_ok a : (forall t, In t (a_nodes a) -> node_ok t /\ t_factor t <> None /\ 0 <= b_x (t_bounds t) /\ 0 <= b_y (t_bounds t)) ->
  exists W H c d, create_canvas a = Ok (set_canvas a c d) /\ 1 <= W /\ 1 <= H /\ shaped W H c /\ shaped W H d /\ nodes_ok W H (a_nodes a).
Proof.
  intros Hn. destruct (canvas_size (a_nodes a)) as (X & Y & HW & HH & Hin); [intros t Ht; apply Hn; auto|].
  destruct (make_grid_ok (canvas_bounds (a_nodes a)) 0) as (g & E & Hg & _); [lia|lia|].
  exists (b_w (canvas_bounds (a_nodes a))), (b_h (canvas_bounds (a_nodes a))), g, g. unfold create_canvas. rewrite E. cbn [gbind].
  split; [auto|]. split; [auto|]. split; [auto|]. split; [auto|]. split; [auto|]. intros t Ht. destruct (Hn t Ht) as (A & B & _). auto.
Qed.
