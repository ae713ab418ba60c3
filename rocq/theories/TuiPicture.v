(** What the picture of a node shows. *)
From Coq Require Import ZArith List Bool String Lia QArith Qcanon Qround Qabs Lqa.
From Verif Require Import Num GoBase VarModel GoFacts CliModel CliFacts NetModel TrainFacts TuiModel SpecApp XnumFacts TuiGrid TuiDraw.
Import ListNotations.
Open Scope string_scope.
Open Scope list_scope.
Open Scope Z_scope.

Lemma longest_eq l : forall k, 0 <= k -> fold_left (fun m s => if m <? zlen (runes_of s) then zlen (runes_of s) else m) l k = Z.max k (fold_right Z.max 0 (map (fun o => zlen (runes_of o)) l)).
Proof.
  induction l as [|s l IH]; intros k Hk; cbn [fold_left map fold_right]; [lia|]. pose proof (zlen_nonneg (runes_of s)). destruct (k <? zlen (runes_of s)) eqn:Ek; rewrite IH by lia; lia.
Qed.
Lemma label_width_eq v : label_width v = state_len v.
Proof.
  unfold label_width, state_len, max_state_label_width. cbv zeta. rewrite (longest_eq (nv_outcomes v) 0 ltac:(lia)).
  assert (0 <= fold_right Z.max 0 (map (fun o => zlen (runes_of o)) (nv_outcomes v))) by (induction (nv_outcomes v); cbn [map fold_right]; lia).
  destruct (16 <? _) eqn:E16; lia.
Qed.
Lemma type_utility v : is_utility v = match nv_type v with Utility => true | _ => false end.
Proof. unfold is_utility. destruct (nv_type v); reflexivity. Qed.
Lemma box_size v : b_w (node_bounds v) = box_width v /\ b_h (node_bounds v) = box_height v.
Proof.
  unfold box_width, box_height, node_bounds. rewrite label_width_eq, type_utility. cbn [b_w b_h]. unfold extra_utility_width, max_bars, max_node_label_width. destruct (nv_type v); lia.
Qed.

(** ** Layers *)
Lemma dots_value l y x r : dots l y x = Some r -> In (y, x, r) l.
Proof.
  unfold dots. induction l as [|[[y' x'] r'] l IH]; [discriminate|]. rewrite layers_cons. destruct (layers _ l y x) as [r1|] eqn:E; intros H.
  - right. apply IH. congruence.
  - left. unfold dot in H. destruct ((y =? y') && (x =? x')) eqn:E2; [|discriminate]. rewrite andb_true_iff in E2. injection H as <-. destruct E2 as [Ea Eb]. apply Z.eqb_eq in Ea. apply Z.eqb_eq in Eb. subst. auto.
Qed.
Lemma dots_is l y x r : (forall r', In (y, x, r') l -> r' = r) -> In (y, x, r) l -> dots l y x = Some r.
Proof.
  intros H Hin. destruct (dots l y x) as [r'|] eqn:E; [f_equal; apply H; apply dots_value; auto|]. exfalso. assert (Hs : exists r, In (y, x, r) l) by eauto. apply dots_some in Hs. congruence.
Qed.
Lemma dots_none l y x : (forall r, ~ In (y, x, r) l) -> dots l y x = None.
Proof. intros H. destruct (dots l y x) as [r|] eqn:E; auto. exfalso. apply (H r). apply dots_value. auto. Qed.
Lemma layers_numbered {X} (V : Z * X -> layer) l y x k : (forall i p, In p l -> i <> k -> V (i, p) y x = None) ->
  layers V (combine (zrange 0 (zlen l)) l) y x = if k <? 0 then None else match nth_error l (Z.to_nat k) with Some p => V (k, p) y x | None => None end.
Proof.
  intros H. set (r := if k <? 0 then None else _). destruct (layers V _ y x) as [c|] eqn:E.
  - assert (Hu : forall L, (forall i p, In (i, p) L -> In p l /\ (i = k -> nth_error l (Z.to_nat k) = Some p /\ 0 <= k)) -> layers V L y x = Some c -> r = Some c).
    { induction L as [|[i p] L IH]; intros HL EL; [discriminate|]. rewrite layers_cons in EL. destruct (layers V L y x) as [c'|] eqn:E'.
      - apply IH; [intros; eapply HL; eauto; right; eauto|auto].
      - destruct (HL i p (or_introl eq_refl)) as [Hin Hp]. destruct (Z.eq_dec i k) as [->|Hne]; [|rewrite H in EL by auto; discriminate]. destruct (Hp eq_refl) as [Hp' Hk]. unfold r. replace (k <? 0) with false by lia. rewrite Hp'. auto. }
    symmetry. apply (Hu (combine (zrange 0 (zlen l)) l)); auto. intros i p Hin. apply in_numbered in Hin. destruct Hin as [Hk Hp]. split; [eapply nth_error_In; eauto|]. intros ->. split; [exact Hp|lia].
  - unfold r. destruct (k <? 0) eqn:Ek; auto. destruct (nth_error l (Z.to_nat k)) as [p|] eqn:Ep; auto. destruct (V (k, p) y x) as [c|] eqn:Ev; auto. exfalso.
    assert (Hn : layers V (combine (zrange 0 (zlen l)) l) y x <> None); [|congruence]. apply layers_some. exists (k, p). split; [|congruence].
    apply nth_error_In with (n := Z.to_nat k). rewrite numbered_at, Ep. cbn [option_map]. do 2 f_equal. lia.
Qed.

(** ** The border *)
Definition border_at (w h : Z) (s : bool) (y x : Z) : option Z :=
  if (y =? 0) && (x =? 0) then Some (border_nw s)
  else if (y =? 0) && (x =? w - 1) then Some (border_ne s)
  else if (y =? h - 1) && (x =? 0) then Some (border_sw s)
  else if (y =? h - 1) && (x =? w - 1) then Some (border_se s)
  else if (y =? 0) || (y =? h - 1) then Some (border_h s)
  else if (x =? 0) || (x =? w - 1) then Some (border_v s)
  else None.
Lemma in_border b s y x r : In (y, x, r) (border_dots b s) <->
  (y = 0 /\ x = 0 /\ r = border_nw s) \/ (y = 0 /\ x = b_w b - 1 /\ r = border_ne s) \/ (y = b_h b - 1 /\ x = 0 /\ r = border_sw s) \/ (y = b_h b - 1 /\ x = b_w b - 1 /\ r = border_se s) \/
  ((y = 0 \/ y = b_h b - 1) /\ 1 <= x < b_w b - 1 /\ r = border_h s) \/ ((x = 0 \/ x = b_w b - 1) /\ 1 <= y < b_h b - 1 /\ r = border_v s).
Proof.
  unfold border_dots. rewrite !in_app_iff, !in_flat_map. cbn [In]. split.
  - intros [[E|[E|[E|[E|[]]]]]|[(i & Hi & [E|[E|[]]])|(i & Hi & [E|[E|[]]])]]; injection E as <- <- <-; try (apply in_zrange in Hi); intuition lia.
  - intros [(-> & -> & ->)|[(-> & -> & ->)|[(-> & -> & ->)|[(-> & -> & ->)|[(Hy & Hx & ->)|(Hx & Hy & ->)]]]]]; [left; auto|left; auto|left; auto 6|left; auto 8|right; left|right; right].
    + exists x. rewrite in_zrange. split; [lia|]. destruct Hy as [->| ->]; auto.
    + exists y. rewrite in_zrange. split; [lia|]. destruct Hx as [->| ->]; auto.
Qed.
Lemma border_at_ok b s y x : 2 <= b_w b -> 2 <= b_h b -> 0 <= y < b_h b -> 0 <= x < b_w b -> dots (border_dots b s) y x = border_at (b_w b) (b_h b) s y x.
Proof.
  intros Hw Hh Hy Hx. unfold border_at.
  destruct ((y =? 0) && (x =? 0)) eqn:E1; [rewrite andb_true_iff in E1; apply dots_is; [intros r' H; apply in_border in H; intuition (congruence || lia)|apply in_border; intuition lia]|].
  destruct ((y =? 0) && (x =? b_w b - 1)) eqn:E2; [rewrite andb_true_iff in E2; apply dots_is; [intros r' H; apply in_border in H; intuition (congruence || lia)|apply in_border; intuition lia]|].
  destruct ((y =? b_h b - 1) && (x =? 0)) eqn:E3; [rewrite andb_true_iff in E3; apply dots_is; [intros r' H; apply in_border in H; intuition (congruence || lia)|apply in_border; intuition lia]|].
  destruct ((y =? b_h b - 1) && (x =? b_w b - 1)) eqn:E4; [rewrite andb_true_iff in E4; apply dots_is; [intros r' H; apply in_border in H; intuition (congruence || lia)|apply in_border; intuition lia]|].
  rewrite andb_false_iff in E1, E2, E3, E4.
  destruct ((y =? 0) || (y =? b_h b - 1)) eqn:E5; [rewrite orb_true_iff in E5; apply dots_is; [intros r' H; apply in_border in H; intuition (congruence || lia)|apply in_border; right; right; right; right; left; intuition lia]|].
  rewrite orb_false_iff in E5.
  destruct ((x =? 0) || (x =? b_w b - 1)) eqn:E6; [rewrite orb_true_iff in E6; apply dots_is; [intros r' H; apply in_border in H; intuition (congruence || lia)|apply in_border; right; right; right; right; right; intuition lia]|].
  rewrite orb_false_iff in E6. apply dots_none. intros r H. apply in_border in H. intuition lia.
Qed.

(** ** New nodes *)
Definition title_layer (v : nvar) (w : Z) : layer :=
  over (match nv_type v with Decision => dot 1 (w - 3) (rune "!") | Utility => dot 1 (w - 3) (rune "$") | Chance => blank end) (strip 1 2 (w - 2) (runes_of (nv_name v))).
Definition label_layer (v : nvar) (bars : Z) : layer :=
  over (if is_utility v then strip (zlen (nv_outcomes v) + 2) 2 (bars - 1) (runes_of "total") else blank)
    (layers (fun '((i, label) : Z * string) => strip (i + 2) 2 (bars - 1) (runes_of label)) (combine (zrange 0 (zlen (nv_outcomes v))) (nv_outcomes v))).
Lemma draw_title_paints v b : 5 <= b_w b -> 2 <= b_h b -> paints (b_w b) (b_h b) (draw_title v b) (title_layer v (b_w b)).
Proof.
  intros Hw Hh. unfold draw_title, title_layer. apply paints_seq; [apply (paints_copy2 (b_w b) (b_h b) 1 2 (Some (b_w b - 2)) (runes_of (nv_name v))); lia|].
  destruct (nv_type v); [apply paints_none|apply paints_put; lia|apply paints_put; lia].
Qed.
Lemma draw_labels_paints v w h bars : 3 <= bars -> bars <= w -> h = zlen (nv_outcomes v) + (if is_utility v then 4 else 3) -> paints w h (draw_labels v bars) (label_layer v bars).
Proof.
  intros Hb Hw Hh. assert (Hh2 : zlen (nv_outcomes v) + 3 <= h) by (destruct (is_utility v); lia). pose proof (zlen_nonneg (nv_outcomes v)). unfold draw_labels, label_layer. apply paints_seq.
  - apply (paints_list w h (fun g '((i, label) : Z * string) => copy2 g (i + 2) 2 (Some (bars - 1)) (runes_of label)) (fun '((i, label) : Z * string) => strip (i + 2) 2 (bars - 1) (runes_of label))).
    intros [i label] Hin. apply in_numbered in Hin. apply (paints_copy2 w h (i + 2) 2 (Some (bars - 1)) (runes_of label)); lia.
  - destruct (is_utility v); [|apply paints_none]. apply (paints_copy2 w h (zlen (nv_outcomes v) + 2) 2 (Some (bars - 1)) (runes_of "total")); lia.
Qed.

Lemma new_node_cells v f : known_color v -> exists t, new_node v f = Ok t /\ node_ok t /\ t_var t = v /\ t_bounds t = node_bounds v /\
  forall y x, 0 <= y < b_h (t_bounds t) -> 0 <= x < b_w (t_bounds t) ->
    px (t_runes t) y x = Ok (match label_layer v (t_bars t) y x with Some r => r | None => match title_layer v (b_w (t_bounds t)) y x with Some r => r | None =>
      match border_at (b_w (t_bounds t)) (b_h (t_bounds t)) false y x with Some r => r | None => 32 end end end).
Proof.
  intros Hc. destruct (new_node_ok v f Hc) as (t & Et & Hok & Hv & _ & Hb). exists t. split; auto. split; auto. split; auto. split; auto.
  destruct (node_sizes t Hok) as (S1 & S2 & S3 & S4). pose proof (node_height v) as Hh.
  unfold new_node in Et. destruct (node_color v) as [c| |] eqn:Ec; try discriminate. destruct (make_grid_ok (node_bounds v) sym_empty) as (g0 & E0 & G0 & R0); [rewrite <- Hb; lia|rewrite <- Hb; lia|]. rewrite E0 in Et. cbn [gbind] in Et.
  destruct (make_grid (node_bounds v) c) as [cg| |] eqn:Ecg; try discriminate. cbn [gbind] in Et. rewrite Hb in *.
  destruct (draw_border_ok (node_bounds v) false ltac:(lia) ltac:(lia) g0 G0) as (g1 & E1 & G1 & P1). rewrite E1 in Et. cbn [gbind] in Et.
  destruct (draw_title_paints v (node_bounds v) ltac:(lia) ltac:(lia) g1 G1) as (g2 & E2 & G2 & P2). rewrite E2 in Et. cbn [gbind] in Et.
  assert (Hbars : t_bars t = state_len v + 3) by (rewrite (no_bars _ Hok), Hv; auto).
  destruct (draw_labels_paints v (b_w (node_bounds v)) (b_h (node_bounds v)) (state_len v + 3) ltac:(lia) ltac:(lia) ltac:(lia) g2 G2) as (g3 & E3 & G3 & P3). rewrite E3 in Et. cbn [gbind] in Et.
  injection Et as <-. cbn [t_runes t_bars t_bounds] in *. intros y x Hy Hx. rewrite P3 by auto. destruct (label_layer v (state_len v + 3) y x); auto. rewrite P2 by auto. destruct (title_layer v _ y x); auto. rewrite P1 by auto. rewrite border_at_ok by lia. destruct (border_at _ _ false y x); auto.
  unfold px. destruct (sget_in g0 y ltac:(destruct G0; lia)) as (row & Er & Hin). rewrite Er. cbn [gbind]. rewrite (R0 row Hin).
  destruct (sget_in (repeat sym_empty (Z.to_nat (b_w (node_bounds v)))) x) as (r & E & Hr); [unfold zlen; rewrite repeat_length; lia|]. rewrite E. apply repeat_spec in Hr. rewrite Hr. reflexivity.
Qed.

(** ** Characters of texts *)
Lemma strip_at y lo hi src x : strip y lo hi src y x = if (lo <=? x) && (x <? hi) && (x <? lo + zlen src) then Some (char_at src (x - lo)) else None.
Proof.
  unfold strip. rewrite Z.eqb_refl. cbn [andb]. destruct ((lo <=? x) && (x <? hi) && (x <? lo + zlen src)) eqn:E; auto. rewrite !andb_true_iff in E. unfold char_at. replace (x - lo <? 0) with false by lia.
  assert (Hl : (Z.to_nat (x - lo) < List.length src)%nat) by (unfold zlen in E; lia). apply nth_error_nth' with (d := 32) in Hl. auto.
Qed.
Lemma strip_other y lo hi src y' x : y' <> y -> strip y lo hi src y' x = None.
Proof. intros H. unfold strip. replace (y' =? y) with false by lia. auto. Qed.
Lemma char_beyond l i : zlen l <= i -> char_at l i = 32.
Proof. intros H. unfold char_at. destruct (i <? 0); auto. apply nth_overflow. unfold zlen in H. lia. Qed.
Lemma char_before l i : i < 0 -> char_at l i = 32.
Proof. intros H. unfold char_at. replace (i <? 0) with true by lia. auto. Qed.

(** ** Bars *)
Lemma bar_char_ok p full part j : bar_ok p -> bar_parts p = Ok (full, part) -> 0 <= j < 10 ->
  bar_char p j = if j <? full then sym_full else if (0 <? part) && (j =? full) then nth (Z.to_nat part) sym_partial 0 else sym_shade.
Proof.
  destruct p as [q| | |]; cbn [bar_ok bar_parts bar_char]; try contradiction.
  - intros [H0 H1] E Hj. unfold Qcle in *. cbn [this Q2Qc] in *. rewrite ?Qred_correct in *. change (zlen sym_partial) with 7 in E.
    set (x := (q * 10)%Q) in *. assert (Hx : (0 <= x <= 10)%Q) by (unfold x; lra). rewrite (trunc_floor x) in E by lra.
    pose proof (Qfloor_le x) as F1. pose proof (Qlt_floor x) as F2. rewrite inject_Z_plus in F2. change (inject_Z 1) with 1%Q in F2.
    set (f := Qfloor x) in *. set (y := ((x - inject_Z f) * inject_Z 7)%Q) in *. assert (Hy : (0 <= y)%Q) by (unfold y; change (inject_Z 7) with 7%Q; lra).
    rewrite (trunc_floor y Hy) in E. assert (E' : (f, Qfloor y) = (full, part)) by congruence. apply pair_equal_spec in E'. destruct E' as [<- <-]. clear E. pose proof (Qfloor_le y) as G1. pose proof (Qlt_floor y) as G2. rewrite inject_Z_plus in G2. change (inject_Z 1) with 1%Q in G2.
    cbv zeta. destruct (j <? f) eqn:Ejf.
    + assert (inject_Z (j + 1) <= inject_Z f)%Q by (rewrite <- Zle_Qle; lia). rewrite inject_Z_plus in H. change (inject_Z 1) with 1%Q in H.
      replace (Qle_bool 1 (x - inject_Z j)) with true; [reflexivity|]. symmetry. apply Qle_bool_iff. lra.
    + destruct (Qle_bool 1 (x - inject_Z j)) eqn:E1.
      { exfalso. apply Qle_bool_iff in E1. assert (inject_Z f <= inject_Z j)%Q by (rewrite <- Zle_Qle; lia). lra. }
      destruct (j =? f) eqn:Eq.
      * apply Z.eqb_eq in Eq. subst j. rewrite andb_true_r. assert (Hyv : (y == 7 * (x - inject_Z f))%Q) by (unfold y; change (inject_Z 7) with 7%Q; ring).
        rewrite <- (Qfloor_comp _ _ Hyv). set (z := Qfloor y) in *. clearbody z. clearbody y.
        destruct (Qle_bool (1 # 7) (x - inject_Z f)) eqn:E2.
        -- apply Qle_bool_iff in E2. assert (Hp : 0 < z). { rewrite Zlt_Qlt. change (inject_Z 0) with 0%Q. assert (0 < z + 1); [rewrite Zlt_Qlt, inject_Z_plus; change (inject_Z 0) with 0%Q; change (inject_Z 1) with 1%Q; lra|]. destruct (Z.eq_dec z 0) as [->|]; [change (inject_Z 0) with 0%Q in G2; lra|]. change 0%Q with (inject_Z 0). rewrite <- Zlt_Qlt. lia. }
           assert (Hn : ~ (1 <= x - inject_Z f)%Q) by (intros Hc; apply Qle_bool_iff in Hc; congruence).
           assert (H7 : z < 7). { rewrite Zlt_Qlt. change (inject_Z 7) with 7%Q. lra. }
           replace (0 <? z) with true by lia. unfold char_at. replace (z <? 0) with false by lia.
           unfold sym_partial. assert (Hl : List.length (runes_of "▏▎▍▌▋▊▉") = 7%nat) by (vm_compute; reflexivity). set (l := runes_of "▏▎▍▌▋▊▉") in *. clearbody l. apply nth_indep. lia.
        -- assert (Hn : ~ (1 # 7 <= x - inject_Z f)%Q) by (intros Hc; apply Qle_bool_iff in Hc; congruence). replace (0 <? z) with false; [reflexivity|]. symmetry. apply Z.ltb_ge.
           assert (z < 1); [|lia]. rewrite Zlt_Qlt. change (inject_Z 1) with 1%Q. lra.
      * rewrite andb_false_r. destruct (Qle_bool (1 # 7) (x - inject_Z j)) eqn:E2; [|reflexivity]. exfalso. apply Qle_bool_iff in E2. assert (inject_Z (f + 1) <= inject_Z j)%Q by (rewrite <- Zle_Qle; lia). rewrite inject_Z_plus in H. change (inject_Z 1) with 1%Q in H. lra.
  - intros _ E Hj. injection E as <- <-. replace (j <? 0) with false by lia. reflexivity.
Qed.

(** ** The cells of a node *)
Lemma bar_cell t sel st ev k p x : node_ok t -> is_utility (t_var t) = false -> bar_ok p -> 0 <= k -> 0 < x < b_w (t_bounds t) - 1 ->
  bar_of t sel st ev (k, p) (k + 2) x =
    if (x =? 1) then Some (if sel && (st =? k) then rune "[" else if ev then rune "+" else 32)
    else if (x =? b_w (t_bounds t) - 2) then Some (if sel && (st =? k) then rune "]" else if ev then rune "+" else 32)
    else if (t_bars t <=? x) && (x <? t_bars t + 10) then Some (bar_char p (x - t_bars t))
    else if (t_bars t + 11 <=? x) && (x <? t_bars t + 18) then Some (char_at (bar_text p) (x - t_bars t - 11)) else None.
Proof.
  intros Hok Hu Hp Hk Hx. destruct (node_sizes t Hok) as (S1 & S2 & S3 & S4). pose proof (node_width (t_var t)) as Hw. rewrite Hu in Hw. rewrite <- (no_w _ Hok) in Hw. pose proof (no_bars _ Hok) as Hb.
  unfold bar_of. cbn [snd]. destruct (bar_parts_ok p Hp) as (full & part & E & Hf & Hpt & Hfp). rewrite E. unfold bar_layer.
  set (l := if sel && (st =? k) then rune "[" else if ev then rune "+" else 32). set (r := if sel && (st =? k) then rune "]" else if ev then rune "+" else 32).
  assert (Hlr : (if sel && (st =? k) then (sym_selection_start, sym_selection_end) else if ev then (sym_evidence, sym_evidence) else (sym_empty, sym_empty)) = (l, r)).
  { unfold l, r. destruct (sel && (st =? k)); auto. destruct ev; auto. }
  rewrite Hlr. clear Hlr. clearbody l r. unfold over.
  assert (Hd : dots [(k + 2, 1, l); (k + 2, b_w (t_bounds t) - 2, r)] (k + 2) x = if x =? 1 then Some l else if x =? b_w (t_bounds t) - 2 then Some r else None).
  { unfold dots. rewrite !layers_cons. cbn [layers fold_left]. unfold dot, blank. rewrite Z.eqb_refl. cbn [andb]. destruct (x =? b_w (t_bounds t) - 2) eqn:E2; [replace (x =? 1) with false by lia; auto|]. destruct (x =? 1); auto. }
  rewrite Hd. destruct (x =? 1) eqn:E1; auto. destruct (x =? b_w (t_bounds t) - 2) eqn:E2; auto. clear Hd.
  rewrite strip_at, (bar_text_len p Hp). unfold max_bars. rewrite !dots_run. rewrite !Z.eqb_refl. cbn [andb].
  destruct ((t_bars t <=? x) && (x <? t_bars t + 10)) eqn:E3.
  - rewrite andb_true_iff in E3. replace (t_bars t + 10 + 1 <=? x) with false by lia. cbn [andb].
    rewrite (bar_char_ok p full part (x - t_bars t) Hp E) by lia.
    destruct (0 <? part) eqn:Ep.
    + destruct (x - t_bars t <? full) eqn:Ef.
      * replace (full + 1 <=? x - t_bars t) with false by lia. cbn [andb]. unfold dot. replace (x =? t_bars t + full) with false by lia. rewrite andb_false_r. replace (0 <=? x - t_bars t) with true by lia. cbn [andb]. auto.
      * cbn [andb]. destruct (x - t_bars t =? full) eqn:Eq.
        -- replace (full + 1 <=? x - t_bars t) with false by lia. cbn [andb]. unfold dot. rewrite Z.eqb_refl. replace (x =? t_bars t + full) with true by lia. auto.
        -- replace (full + 1 <=? x - t_bars t) with true by lia. replace (x - t_bars t <? 10) with true by lia. auto.
    + cbn [andb]. destruct (x - t_bars t <? full) eqn:Ef.
      * replace (full <=? x - t_bars t) with false by lia. replace (0 <=? x - t_bars t) with true by lia. cbn [andb]. auto.
      * replace (full <=? x - t_bars t) with true by lia. replace (x - t_bars t <? 10) with true by lia. auto.
  - rewrite andb_false_iff in E3. replace (t_bars t + 10 + 1) with (t_bars t + 11) by lia. destruct ((t_bars t + 11 <=? x) && (x <? t_bars t + 18)) eqn:E4.
    + rewrite andb_true_iff in E4. replace (t_bars t + 11 <=? x) with true by lia. replace (x <? b_w (t_bounds t)) with true by lia. replace (x <? t_bars t + 11 + 7) with true by lia. cbn [andb]. do 2 f_equal. lia.
    + rewrite andb_false_iff in E4. replace ((t_bars t + 11 <=? x) && (x <? b_w (t_bounds t)) && (x <? t_bars t + 11 + 7)) with false; [|symmetry; rewrite !andb_false_iff; lia].
      set (lo := if 0 <? part then full + 1 else full). assert (0 <= lo) by (unfold lo; destruct (0 <? part); lia).
      replace ((lo <=? x - t_bars t) && (x - t_bars t <? 10)) with false by (symmetry; rewrite !andb_false_iff; lia).
      replace ((if 0 <? part then dot (k + 2) (t_bars t + full) (nth (Z.to_nat part) sym_partial 0) else blank) (k + 2) x) with (@None Z).
      * replace ((0 <=? x - t_bars t) && (x - t_bars t <? full)) with false by (symmetry; rewrite !andb_false_iff; lia). auto.
      * destruct (0 <? part) eqn:Ep; auto. unfold dot. replace (x =? t_bars t + full) with false by lia. rewrite andb_false_r. auto.
Qed.
Lemma bar_other t sel st ev k p y x : y <> k + 2 -> bar_ok p -> node_ok t -> is_utility (t_var t) = false -> bar_of t sel st ev (k, p) y x = None.
Proof.
  intros Hy Hp Hok Hu. unfold bar_of. cbn [snd]. destruct (bar_parts_ok p Hp) as (full & part & E & _). rewrite E. destruct (bar_layer t sel st ev (k, p) full part y x) eqn:El; auto.
  assert (Hn : bar_layer t sel st ev (k, p) full part y x <> None) by congruence. apply (bar_layer_cells t sel st ev k p full part y x Hok Hu Hp E) in Hn. destruct Hn. lia.
Qed.

(** A number for each outcome. *)
Definition enough (v : nvar) (probs : list xnum) : Prop := is_utility v = false -> zlen probs = zlen (nv_outcomes v).
Lemma numbers_layer t probs sel st ev y x : node_ok t -> fits (t_var t) probs -> 
  (if is_utility (t_var t) then layers (text_of t) (numbered_probs probs) else layers (bar_of t sel st ev) (numbered_probs probs)) y x =
  if y - 2 <? 0 then None else
    match nth_error probs (Z.to_nat (y - 2)) with
    | Some p => if is_utility (t_var t) then text_of t (y - 2, p) y x else bar_of t sel st ev (y - 2, p) y x
    | None => None
    end.
Proof.
  intros Hok Hf. unfold fits in Hf. unfold numbered_probs. destruct (is_utility (t_var t)) eqn:Hu.
  - apply layers_numbered. intros i p _ Hi. unfold text_of. cbn [fst snd]. apply strip_other. lia.
  - destruct Hf as [_ Hf]. rewrite Forall_forall in Hf. apply layers_numbered. intros i p Hin Hi. apply bar_other; auto. lia.
Qed.
Lemma label_at v bars y x : 0 <= y - 2 < zlen (nv_outcomes v) + (if is_utility v then 1 else 0) -> label_layer v bars y x = strip y 2 (bars - 1) (runes_of (nth (Z.to_nat (y - 2)) (nv_outcomes v) "total")) y x.
Proof.
  intros Hy. unfold label_layer, over. rewrite (layers_numbered _ (nv_outcomes v) y x (y - 2)) by (intros i p _ Hi; apply strip_other; lia). replace (y - 2 <? 0) with false by lia. replace (y - 2 + 2) with y by lia.
  destruct (Z.eq_dec (y - 2) (zlen (nv_outcomes v))) as [E|Hne].
  - destruct (is_utility v); [|lia]. replace (zlen (nv_outcomes v) + 2) with y by lia. rewrite (proj2 (nth_error_None _ _)) by (unfold zlen in E; lia). rewrite nth_overflow by (unfold zlen in E; lia). destruct (strip _ _ _ _ _ _); auto.
  - assert (Hl : (Z.to_nat (y - 2) < List.length (nv_outcomes v))%nat) by (unfold zlen in *; destruct (is_utility v); lia). rewrite (nth_error_nth' _ "total" Hl). destruct (is_utility v); [rewrite strip_other by lia|]; auto.
Qed.
Lemma label_none v bars y x : y < 2 \/ zlen (nv_outcomes v) + (if is_utility v then 3 else 2) <= y -> label_layer v bars y x = None.
Proof.
  intros Hy. pose proof (zlen_nonneg (nv_outcomes v)). unfold label_layer, over. rewrite (layers_numbered _ (nv_outcomes v) y x (y - 2)) by (intros i p _ Hi; apply strip_other; lia).
  assert (E : (if y - 2 <? 0 then None else match nth_error (nv_outcomes v) (Z.to_nat (y - 2)) with Some p => strip (y - 2 + 2) 2 (bars - 1) (runes_of p) y x | None => None end) = @None Z).
  { destruct (y - 2 <? 0) eqn:E; auto. rewrite (proj2 (nth_error_None _ _)); auto. destruct (is_utility v); unfold zlen in *; lia. }
  destruct (is_utility v); [rewrite strip_other by lia; auto|auto].
Qed.
Lemma title_none v w y x : y <> 1 -> title_layer v w y x = None.
Proof. intros Hy. unfold title_layer, over, dot, blank. rewrite strip_other by auto. assert (E : (y =? 1) = false) by lia. destruct (nv_type v); auto; rewrite E; auto. Qed.

Theorem node_chars v f probs sel st ev u u' : known_color v -> fits v probs -> enough v probs -> (is_utility v = true -> Forall short probs) ->
  new_node v f = Ok u -> render_node u probs sel st ev = Ok u' ->
  shaped (box_width v) (box_height v) (t_runes u') /\
  forall y x, 0 <= y < box_height v -> 0 <= x < box_width v -> px (t_runes u') y x = Ok (node_char v probs sel st ev y x).
Proof.
  intros Hc Hf Hen Hsh Eu Er. destruct (new_node_cells v f Hc) as (t & Et & Hok & Hv & Hb & Hp). assert (u = t) by congruence. subst u. clear Et. destruct (box_size v) as [Bw Bh].
  assert (Hfv : fits (t_var t) probs) by (rewrite Hv; auto). destruct (render_node_ok t probs sel st ev Hok Hfv) as (g & Eg & Hok' & Hg). rewrite Eg in Er. injection Er as <-.
  rewrite <- Bw, <- Bh. rewrite Hb in *. split.
  - pose proof (no_runes _ Hok') as Hs. unfold with_runes in *. cbn [t_runes t_bounds] in *. rewrite Hb in Hs. auto.
  - intros y x Hy Hx. cbn [t_runes with_runes]. rewrite Hg by auto. rewrite Hp by auto. unfold node_layer, over. rewrite numbers_layer by auto.
    destruct (node_sizes t Hok) as (S1 & S2 & S3 & S4). pose proof (node_height v) as Hh. pose proof (node_width v) as Hw. assert (Hbars : t_bars t = label_width v + 3) by (rewrite (no_bars _ Hok), Hv, label_width_eq; auto).
    rewrite Hb in *. rewrite border_at_ok by lia. rewrite Hv. pose proof (zlen_nonneg (nv_outcomes v)) as Hz.
    unfold node_char. rewrite <- Bw, <- Bh. rewrite <- Hbars. rewrite <- label_width_eq in Hw. set (w := b_w (node_bounds v)) in *. set (h := b_h (node_bounds v)) in *. set (b := t_bars t) in *. cbv zeta.
    assert (Hnum : y = 0 \/ y = 1 \/ y = h - 1 -> (if y - 2 <? 0 then None else match nth_error probs (Z.to_nat (y - 2)) with Some p => if is_utility v then text_of t (y - 2, p) y x else bar_of t sel st ev (y - 2, p) y x | None => None end) = None).
    { intros H. destruct (y - 2 <? 0) eqn:E; auto. rewrite (proj2 (nth_error_None _ _)); auto. unfold fits in Hf. unfold zlen in *. destruct (is_utility v); lia. }
    set (num := if y - 2 <? 0 then None else _) in *.
    assert (Hside : 0 < y < h - 1 -> x = 0 \/ x = w - 1 -> num = None).
    { intros Hyy Hxx. unfold num. destruct (y - 2 <? 0) eqn:E; auto. destruct (nth_error probs (Z.to_nat (y - 2))) as [p|] eqn:Ep; auto. apply nth_error_In in Ep. unfold fits in Hf. destruct (is_utility v) eqn:Hu.
      - specialize (Hsh eq_refl). rewrite Forall_forall in Hsh. specialize (Hsh p Ep). unfold short in Hsh. unfold text_of. cbn [fst snd]. replace (y - 2 + 2) with y by lia. rewrite strip_at, Hsh. fold b. rewrite Hb. fold w.
        replace ((b + 1 <=? x) && (x <? w) && (x <? b + 1 + 12)) with false; auto. symmetry. rewrite !andb_false_iff. lia.
      - destruct Hf as [_ Hf]. rewrite Forall_forall in Hf. specialize (Hf p Ep). unfold bar_of. cbn [snd]. destruct (bar_parts_ok p Hf) as (full & part & Epp & _). rewrite Epp. destruct (bar_layer t sel st ev (y - 2, p) full part y x) eqn:El; auto. exfalso.
        assert (Hn : bar_layer t sel st ev (y - 2, p) full part y x <> None) by congruence. rewrite <- Hv in Hu. apply (bar_layer_cells t sel st ev (y - 2) p full part y x Hok Hu Hf Epp) in Hn. destruct Hn as [_ Hn]. rewrite Hb in Hn. fold w b in Hn. lia. }
    assert (Hedge : border_at w h sel y x <> None -> num = None).
    { unfold border_at. intros Hbo. destruct (Z.eq_dec y 0); [auto|]. destruct (Z.eq_dec y (h - 1)); [auto|]. apply Hside; [lia|]. destruct (Z.eq_dec x 0); auto. destruct (Z.eq_dec x (w - 1)); auto. exfalso. apply Hbo.
      replace (y =? 0) with false by lia. replace (y =? h - 1) with false by lia. replace (x =? 0) with false by lia. replace (x =? w - 1) with false by lia. auto. }
    destruct (border_at w h sel y x) as [r|] eqn:Ebo.
    + rewrite Hedge by congruence. unfold border_at in Ebo. destruct ((y =? 0) && (x =? 0)); [injection Ebo as <-; destruct sel; auto|]. destruct ((y =? 0) && (x =? w - 1)); [injection Ebo as <-; destruct sel; auto|]. destruct ((y =? h - 1) && (x =? 0)); [injection Ebo as <-; destruct sel; auto|].
      destruct ((y =? h - 1) && (x =? w - 1)); [injection Ebo as <-; destruct sel; auto|]. destruct ((y =? 0) || (y =? h - 1)); [injection Ebo as <-; destruct sel; auto|]. destruct ((x =? 0) || (x =? w - 1)); [injection Ebo as <-; destruct sel; auto|]. discriminate.
    + assert (Hin : 0 < y < h - 1 /\ 0 < x < w - 1).
      { unfold border_at in Ebo. destruct ((y =? 0) && (x =? 0)); [discriminate|]. destruct ((y =? 0) && (x =? w - 1)); [discriminate|]. destruct ((y =? h - 1) && (x =? 0)); [discriminate|]. destruct ((y =? h - 1) && (x =? w - 1)); [discriminate|].
        destruct ((y =? 0) || (y =? h - 1)) eqn:E1; [discriminate|]. destruct ((x =? 0) || (x =? w - 1)) eqn:E2; [discriminate|]. rewrite orb_false_iff in E1, E2. lia. }
      destruct Hin as [Hyi Hxi]. unfold border_at. replace (y =? 0) with false by lia. replace (y =? h - 1) with false by lia. replace (x =? 0) with false by lia. replace (x =? w - 1) with false by lia. cbn [andb orb].
      destruct (y =? 1) eqn:Ey1.
      * apply Z.eqb_eq in Ey1. rewrite Hnum by auto. rewrite label_none by lia. unfold title_layer, over, dot, blank. subst y. rewrite strip_at. cbn [andb Z.eqb Pos.eqb].
        assert (Ht : match (if (2 <=? x) && (x <? w - 2) && (x <? 2 + zlen (runes_of (nv_name v))) then Some (char_at (runes_of (nv_name v)) (x - 2)) else None) with Some r => r | None => 32 end = if x <? w - 2 then char_at (runes_of (nv_name v)) (x - 2) else 32).
        { destruct (x <? w - 2) eqn:E1; [|rewrite andb_false_r; auto]. rewrite andb_true_r. destruct (2 <=? x) eqn:E2; cbn [andb]; [|rewrite char_before by lia; auto]. destruct (x <? 2 + zlen (runes_of (nv_name v))) eqn:E3; auto. rewrite char_beyond by lia. auto. }
        rewrite <- Ht. destruct (nv_type v); auto; destruct (x =? w - 3); auto.
      * rewrite (title_none v w y x) by lia. assert (Hk : 0 <= y - 2 < zlen (nv_outcomes v) + (if is_utility v then 1 else 0)) by (destruct (is_utility v); lia).
        rewrite (label_at v b y x Hk), strip_at. set (label := runes_of (nth (Z.to_nat (y - 2)) (nv_outcomes v) "total")).
        unfold num. replace (y - 2 <? 0) with false by lia. clear num Hnum Hside Hedge.
        assert (Hlab : match (if (2 <=? x) && (x <? b - 1) && (x <? 2 + zlen label) then Some (char_at label (x - 2)) else None) with Some r => r | None => 32 end = if (2 <=? x) && (x <? b - 1) then char_at label (x - 2) else 32).
        { destruct ((2 <=? x) && (x <? b - 1)) eqn:E1; auto. cbn [andb]. destruct (x <? 2 + zlen label) eqn:E3; auto. rewrite char_beyond by lia. auto. }
        rewrite Hlab. clear Hlab. destruct (nth_error probs (Z.to_nat (y - 2))) as [p|] eqn:Ep.
        -- pose proof (nth_error_In _ _ Ep) as Hp2. unfold fits in Hf. pose proof (type_utility v) as Hty. destruct (is_utility v) eqn:Hu.
           ++ specialize (Hsh eq_refl). rewrite Forall_forall in Hsh. specialize (Hsh p Hp2). unfold short in Hsh. unfold text_of. cbn [fst snd]. replace (y - 2 + 2) with y by lia. rewrite strip_at, Hsh. fold b. rewrite Hb. fold w.
              destruct (nv_type v); try discriminate.
              destruct ((2 <=? x) && (x <? b - 1)) eqn:E1.
              ** rewrite andb_true_iff in E1. replace (b + 1 <=? x) with false by lia. cbn [andb]. auto.
              ** destruct (b + 1 <=? x) eqn:E2; cbn [andb]; [|rewrite char_before by lia; auto]. replace (x <? w) with true by lia. cbn [andb]. destruct (x <? b + 1 + 12) eqn:E3; [do 2 f_equal; lia|]. rewrite char_beyond by lia. auto.
           ++ destruct Hf as [_ Hf]. rewrite Forall_forall in Hf. specialize (Hf p Hp2). assert (Hu' : is_utility (t_var t) = false) by (rewrite Hv; auto).
              pose proof (bar_cell t sel st ev (y - 2) p x Hok Hu' Hf ltac:(lia)) as Hbc. rewrite Hb in Hbc. fold w b in Hbc. replace (y - 2 + 2) with y in Hbc by lia. rewrite Hbc by lia. clear Hbc.
              assert (Hty' : forall X (A B : X), match nv_type v with Utility => A | _ => B end = B) by (intros; destruct (nv_type v); auto; discriminate).
              destruct ((2 <=? x) && (x <? b - 1)) eqn:E1.
              ** rewrite andb_true_iff in E1. replace (x =? 1) with false by lia. replace (x =? w - 2) with false by lia. replace (b <=? x) with false by lia. replace (b + 11 <=? x) with false by lia. auto.
              ** assert (G : Ok (if x =? 1 then if sel && (st =? y - 2) then rune "[" else if ev then rune "+" else 32 else if x =? w - 2 then if sel && (st =? y - 2) then rune "]" else if ev then rune "+" else 32 else if (b <=? x) && (x <? b + 10) then bar_char p (x - b) else char_at (bar_text p) (x - b - 11)) =
                   Ok (match nv_type v with Utility => char_at (utility_text p) (x - b - 1) | _ => if x =? 1 then if sel && (st =? y - 2) then rune "[" else if ev then rune "+" else 32 else if x =? w - 2 then if sel && (st =? y - 2) then rune "]" else if ev then rune "+" else 32 else if (b <=? x) && (x <? b + 10) then bar_char p (x - b) else char_at (bar_text p) (x - b - 11) end)) by (rewrite Hty'; auto).
                 etransitivity; [|etransitivity; [exact G|destruct (nv_type v); auto]]. destruct (x =? 1); auto. destruct (x =? w - 2); auto. destruct ((b <=? x) && (x <? b + 10)); auto.
                 destruct ((b + 11 <=? x) && (x <? b + 18)) eqn:E2; auto. rewrite andb_false_iff in E2. destruct E2 as [E2|E2]; [rewrite char_before by lia; auto|]. rewrite char_beyond; auto. rewrite (bar_text_len p Hf). lia.
        -- destruct (is_utility v) eqn:Hu.
           ++ rewrite type_utility in Hu. destruct (nv_type v); try discriminate. auto.
           ++ exfalso. specialize (Hen Hu). apply nth_error_None in Ep. unfold zlen in *. lia.
Qed.

(** ** Numbers as texts *)
Lemma round_even_near q : (Qabs (inject_Z (round_even q) - q) <= 1 # 2)%Q.
Proof.
  unfold round_even. pose proof (Qfloor_le q) as H1. pose proof (Qlt_floor q) as H2. rewrite inject_Z_plus in H2. change (inject_Z 1) with 1%Q in H2. apply Qabs_Qle_condition.
  destruct (q - inject_Z (Qfloor q) ?= 1 # 2)%Q eqn:E.
  - apply Qeq_alt in E. destruct (Z.even (Qfloor q)); [|rewrite inject_Z_plus; change (inject_Z 1) with 1%Q]; lra.
  - apply Qlt_alt in E. lra.
  - apply Qgt_alt in E. rewrite inject_Z_plus. change (inject_Z 1) with 1%Q. lra.
Qed.
Lemma round_even_nonneg q : (0 <= q)%Q -> 0 <= round_even q.
Proof. intros H. unfold round_even. assert (0 <= Qfloor q) by (change 0 with (Qfloor 0); apply Qfloor_resp_le; auto). destruct (_ ?= _)%Q; try lia. destruct (Z.even _); lia. Qed.
Lemma digits_snoc l c : digits_value (l ++ [c]) = 10 * digits_value l + (c - 48).
Proof. unfold digits_value. rewrite fold_left_app. reflexivity. Qed.
Lemma digit_mod n : 0 <= n -> digit (48 + n mod 10).
Proof. intros H. unfold digit. pose proof (Z.mod_pos_bound n 10). lia. Qed.
Lemma decimal_ok fuel : forall n, 0 <= n -> n < 10 ^ Z.of_nat fuel -> (0 < fuel)%nat -> decimal fuel n <> [] /\ Forall digit (decimal fuel n) /\ digits_value (decimal fuel n) = n.
Proof.
  induction fuel as [|fuel IH]; intros n H0 Hn Hf; [lia|]. cbn [decimal]. destruct (Z.ltb_spec n 10).
  - split; [discriminate|]. split; [constructor; [unfold digit; lia|constructor]|]. unfold digits_value. cbn [fold_left]. lia.
  - assert (Hfuel : (0 < fuel)%nat) by (destruct fuel; [simpl in Hn; lia|lia]).
    assert (Hd : n / 10 < 10 ^ Z.of_nat fuel). { apply Z.div_lt_upper_bound; [lia|]. rewrite <- Z.pow_succ_r by lia. replace (Z.succ (Z.of_nat fuel)) with (Z.of_nat (S fuel)) by lia. auto. }
    destruct (IH (n / 10) ltac:(apply Z.div_pos; lia) Hd Hfuel) as (I1 & I2 & I3). split; [intros E; apply app_eq_nil in E; destruct E; discriminate|].
    split; [apply Forall_app; split; auto; constructor; auto using digit_mod|]. rewrite digits_snoc, I3. pose proof (Z.div_mod n 10). lia.
Qed.
Lemma fmt_fixed_reads w q : exists r, reads (fmt_fixed w (Fin q)) r /\ (Qabs (r - this q) <= 1 # 2000)%Q.
Proof.
  unfold fmt_fixed. cbv zeta. set (m := round_even (Qabs (this q) * 1000)). assert (Hm : 0 <= m) by (apply round_even_nonneg; pose proof (Qabs_nonneg (this q)); lra).
  pose proof (round_even_near (Qabs (this q) * 1000)) as Hnear. fold m in Hnear. clearbody m.
  assert (Hfuel : m / 1000 < 10 ^ Z.of_nat (S (Z.to_nat (Z.log2 m)))).
  { destruct (Z.eq_dec m 0) as [->|]; [cbn; lia|]. assert (Hl : 0 <= Z.log2 m) by apply Z.log2_nonneg. replace (Z.of_nat (S (Z.to_nat (Z.log2 m)))) with (Z.succ (Z.log2 m)) by lia. pose proof (Z.log2_spec m ltac:(lia)) as [_ H2].
    assert (2 ^ Z.succ (Z.log2 m) <= 10 ^ Z.succ (Z.log2 m)) by (apply Z.pow_le_mono_l; lia). assert (m / 1000 <= m) by (apply Z.div_le_upper_bound; lia). lia. }
  destruct (decimal_ok _ (m / 1000) ltac:(apply Z.div_pos; lia) Hfuel ltac:(lia)) as (D1 & D2 & D3). set (whole := decimal _ (m / 1000)) in *. clearbody whole.
  exists ((if qlt q 0%Qc then -(1) else 1) * (inject_Z m / 1000))%Q. split.
  - unfold reads, pad. eexists _, (qlt q 0%Qc), whole, _, _, _. split; [reflexivity|]. split; auto. split.
    + apply Forall_app. split; auto. assert (0 <= m / 100) by (apply Z.div_pos; lia). assert (0 <= m / 10) by (apply Z.div_pos; lia). repeat constructor; apply digit_mod; lia.
    + replace (digits_value (whole ++ [48 + (m / 100) mod 10; 48 + (m / 10) mod 10; 48 + m mod 10])) with m; [reflexivity|].
      replace (whole ++ _) with (((whole ++ [48 + (m / 100) mod 10]) ++ [48 + (m / 10) mod 10]) ++ [48 + m mod 10]) by (rewrite <- !app_assoc; reflexivity). rewrite !digits_snoc, D3.
      pose proof (Z.div_mod m 10 ltac:(lia)). pose proof (Z.div_mod (m / 10) 10 ltac:(lia)). pose proof (Z.div_mod (m / 100) 10 ltac:(lia)).
      rewrite Zdiv_Zdiv in H0 by lia. rewrite Zdiv_Zdiv in H1 by lia. change (10 * 10) with 100 in *. change (100 * 10) with 1000 in *. lia.
  - assert (Ht : (inject_Z m == 1000 * (inject_Z m / 1000))%Q) by field. set (z := (inject_Z m / 1000)%Q) in *. clearbody z. apply Qabs_Qle_condition in Hnear. apply Qabs_Qle_condition. destruct (qlt q 0%Qc) eqn:Eq.
    + apply qlt_spec in Eq. unfold Qclt in Eq. cbn [this Q2Qc] in Eq. rewrite ?Qred_correct in Eq. rewrite (Qabs_neg (this q)) in Hnear by lra. lra.
    + assert (Hq : ~ (q < 0)%Qc) by (intros H; apply qlt_spec in H; congruence). unfold Qclt in Hq. cbn [this Q2Qc] in Hq. rewrite ?Qred_correct in Hq. rewrite (Qabs_pos (this q)) in Hnear by lra. lra.
Qed.

(** ** Small utilities have short texts *)
Lemma small_short x : (forall q, x = Fin q -> small q) -> short x.
Proof.
  intros H. unfold short. destruct x as [q| | |]; try reflexivity. specialize (H q eq_refl). destruct H as [H1 H2]. cbn [utility_text]. unfold fmt_fixed. apply zlen_pad.
  unfold Qcle in H1, H2. unfold Qcopp in H1. cbn [this Q2Qc] in H1, H2. rewrite ?Qred_correct in H1. rewrite ?Qred_correct in H2.
  assert (Ha : (Qabs q <= 9999999)%Q) by (apply Qabs_Qle_condition; lra). cbv zeta.
  assert (Hn : round_even (Qabs q * 1000) <= 9999999000) by (apply round_even_upper; change (inject_Z 9999999000) with 9999999000%Q; lra).
  set (m := round_even (Qabs q * 1000)) in *. clearbody m.
  assert (Hd : (List.length (decimal (S (Z.to_nat (Z.log2 m))) (m / 1000)) <= 7)%nat).
  { apply decimal_short; [|lia]. apply Z.div_lt_upper_bound; [lia|]. change (1000 * 10 ^ Z.of_nat 7) with 10000000000. lia. }
  unfold zlen. rewrite !app_length. cbn [List.length]. destruct (qlt q 0); cbn [List.length]; lia.
Qed.
