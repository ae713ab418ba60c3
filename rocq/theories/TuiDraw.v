(** Drawing of nodes. *)
From Coq Require Import ZArith List Bool String Lia QArith Qcanon Qround Qabs Lqa.
From Verif Require Import Num GoBase VarModel GoFacts CliModel CliFacts NetModel TrainFacts TuiModel XnumFacts TuiGrid.
Import ListNotations.
Open Scope string_scope.
Open Scope list_scope.
Open Scope Z_scope.

(** A grid of known colors. *)
Definition known_colors (g : grid) : Prop := forall row c, In row g -> In c row -> 0 <= c < 16.
(** A node as made by NewNode, possibly moved and drawn again. *)
Record node_ok (t : tnode) : Prop := {
  no_bars : t_bars t = state_len (t_var t) + 3;
  no_w : b_w (t_bounds t) = b_w (node_bounds (t_var t));
  no_h : b_h (t_bounds t) = b_h (node_bounds (t_var t));
  no_runes : shaped (b_w (t_bounds t)) (b_h (t_bounds t)) (t_runes t);
  no_shape : shaped (b_w (t_bounds t)) (b_h (t_bounds t)) (t_colors t);
  no_colors : known_colors (t_colors t);
  no_tint : exists c, node_color (t_var t) = Ok c /\ forall row k, In row (t_colors t) -> In k row -> k = c
}.
(** A number between 0 and 1, or none. *)
Definition bar_ok (p : xnum) : Prop := match p with NaN => True | Fin q => (0 <= q <= 1)%Qc | _ => False end.
(** Numbers there is space for. *)
Definition fits (v : nvar) (probs : list xnum) : Prop :=
  if is_utility v then zlen probs <= zlen (nv_outcomes v) + 1
  else zlen probs <= zlen (nv_outcomes v) /\ Forall bar_ok probs.

Lemma zlen_nonneg {X} (l : list X) : 0 <= zlen l. Proof. unfold zlen. lia. Qed.
Lemma state_len_range v : 0 <= state_len v <= 16.
Proof.
  assert (Hm : forall l k, 0 <= k -> 0 <= fold_left (fun m s => let cnt := zlen (runes_of s) in if m <? cnt then cnt else m) l k).
  { induction l as [|s l IH]; intros k Hk; cbn [fold_left]; auto. apply IH. pose proof (zlen_nonneg (runes_of s)). cbv zeta. destruct (k <? zlen (runes_of s)); lia. }
  specialize (Hm (nv_outcomes v) 0 (Z.le_refl 0)). unfold state_len, max_state_label_width. set (m := fold_left _ _ 0) in *. cbv zeta.
  destruct (Z.ltb_spec 16 m); lia.
Qed.
Lemma node_width v : state_len v + (if is_utility v then 18 else 23) <= b_w (node_bounds v).
Proof. unfold node_bounds, extra_utility_width, max_bars. cbn [b_w]. destruct (is_utility v); lia. Qed.
Lemma node_height v : b_h (node_bounds v) = zlen (nv_outcomes v) + (if is_utility v then 4 else 3).
Proof. unfold node_bounds. cbn [b_h]. destruct (is_utility v); lia. Qed.

(** ** Bars *)
Lemma trunc_floor q : (0 <= q)%Q -> trunc q = Qfloor q.
Proof.
  intros H. unfold trunc, Qfloor. destruct q as [a b]. cbn [Qnum Qden] in *. unfold Qle in H. cbn in H. apply Z.quot_div_nonneg; lia.
Qed.
Lemma bar_parts_ok p : bar_ok p -> exists full part, bar_parts p = Ok (full, part) /\ 0 <= full <= 10 /\ 0 <= part < 7 /\ (0 < part -> full <= 9).
Proof.
  destruct p as [q| | |]; simpl; try contradiction.
  - intros [H0 H1]. unfold Qcle in *. cbn [this Q2Qc] in *. rewrite ?Qred_correct in *. change (zlen sym_partial) with 7.
    set (x := (q * 10)%Q). assert (Hx : (0 <= x <= 10)%Q) by (unfold x; lra). rewrite (trunc_floor x) by lra.
    pose proof (Qfloor_le x) as F1. pose proof (Qlt_floor x) as F2. rewrite inject_Z_plus in F2. change (inject_Z 1) with 1%Q in F2.
    set (f := Qfloor x) in *. assert (Hf : 0 <= f <= 10).
    { split.
      - rewrite (Zle_Qle 0 f). assert (0 <= f); [|rewrite <- Zle_Qle; auto]. change 0 with (Qfloor 0). apply Qfloor_resp_le. lra.
      - change 10 with (Qfloor 10). apply Qfloor_resp_le. lra. }
    set (y := ((x - inject_Z f) * inject_Z 7)%Q). assert (Hy : (0 <= y)%Q) by (unfold y; change (inject_Z 7) with 7%Q; lra).
    assert (Hy7 : (y < 7)%Q) by (unfold y; change (inject_Z 7) with 7%Q; lra).
    rewrite (trunc_floor y Hy). eexists _, _. split; [reflexivity|]. split; auto.
    pose proof (Qfloor_le y) as G1. assert (0 <= Qfloor y) by (change 0 with (Qfloor 0); apply Qfloor_resp_le; lra).
    assert (Qfloor y < 7) by (rewrite Zlt_Qlt; change (inject_Z 7) with 7%Q; lra).
    split; auto. intros Hp. destruct (Z.eq_dec f 10) as [E|]; [|lia]. exfalso. assert (y <= 0)%Q; [unfold y; rewrite E; change (inject_Z 10) with 10%Q; change (inject_Z 7) with 7%Q; lra|].
    assert (Qfloor y <= 0) by (pose proof (Qfloor_resp_le y 0 H3) as HH; exact HH). lia.
  - intros _. exists 0, 0. split; auto. lia.
Qed.

Lemma decimal_short fuel n k : n < 10 ^ Z.of_nat k -> (0 < k)%nat -> (List.length (decimal fuel n) <= k)%nat.
Proof.
  revert n k. induction fuel as [|fuel IH]; intros n k Hn Hk; simpl; [lia|]. destruct (Z.ltb_spec n 10); simpl; [lia|].
  rewrite app_length. simpl. destruct k as [|[|k]]; [lia|simpl in Hn; lia|]. assert (List.length (decimal fuel (n / 10)) <= S k)%nat; [|lia].
  apply IH; [|lia]. apply Z.div_lt_upper_bound; [lia|]. rewrite <- Z.pow_succ_r by lia. replace (Z.succ (Z.of_nat (S k))) with (Z.of_nat (S (S k))) by lia. auto.
Qed.
Lemma zlen_pad w l : zlen l <= w -> zlen (pad w l) = w.
Proof. intros H. unfold pad, zlen in *. rewrite app_length, repeat_length. lia. Qed.
Lemma round_even_upper q k : (q <= inject_Z k)%Q -> round_even q <= k.
Proof.
  intros H. unfold round_even. assert (Hf : Qfloor q <= k) by (rewrite <- (Qfloor_Z k); apply Qfloor_resp_le; auto).
  pose proof (Qfloor_le q) as H1. destruct (Z.eq_dec (Qfloor q) k) as [E|Hn].
  - assert (Eq : (q - inject_Z (Qfloor q) < 1 # 2)%Q) by (rewrite E; lra). rewrite (proj1 (Qlt_alt _ _) Eq). lia.
  - destruct (_ ?= _)%Q; try lia. destruct (Z.even (Qfloor q)); lia.
Qed.
Lemma bar_text_len p : bar_ok p -> zlen (bar_text p) = 7.
Proof.
  destruct p as [q| | |]; simpl; try contradiction; [|intros; reflexivity].
  intros [H0 H1]. unfold fmt_fixed. apply zlen_pad.
  assert (Hq : (0 <= this (q * Q2Qc 100)%Qc <= 100)%Q).
  { unfold Qcle in *. cbn [this Q2Qc Qcmult] in *. rewrite !Qred_correct in *. lra. }
  change (Q2Qc (inject_Z 100)) with (Q2Qc 100). set (r := (q * Q2Qc 100)%Qc) in *. replace (qlt r 0) with false.
  2:{ symmetry. apply not_true_iff_false. rewrite qlt_spec. unfold Qclt. cbn [this Q2Qc]. rewrite ?Qred_correct. lra. }
  cbn [List.app]. unfold zlen. rewrite app_length. cbn [List.length].
  assert (Hn : round_even (Qabs r * 1000) <= 100000).
  { apply round_even_upper. change (inject_Z 100000) with 100000%Q. rewrite Qabs_pos by lra. lra. }
  assert (Hd : (List.length (decimal (S (Z.to_nat (Z.log2 (round_even (Qabs r * 1000))))) (round_even (Qabs r * 1000) / 1000)) <= 3)%nat); [|lia].
  apply decimal_short; [|lia]. change (10 ^ Z.of_nat 3) with 1000. apply Z.div_lt_upper_bound; lia.
Qed.

Lemma dots_run y b r lo hi y' x' : dots (map (fun j => (y, b + j, r)) (zrange lo hi)) y' x' = if (y' =? y) && (lo <=? x' - b) && (x' - b <? hi) then Some r else None.
Proof.
  assert (G : forall l, dots (map (fun j => (y, b + j, r)) l) y' x' = if (y' =? y) && existsb (Z.eqb (x' - b)) l then Some r else None).
  { induction l as [|j l IH]; [rewrite andb_false_r; reflexivity|]. cbn [map]. unfold dots. rewrite layers_cons. fold (dots (map (fun j => (y, b + j, r)) l)). rewrite IH.
    unfold dot. cbn [existsb]. destruct (y' =? y); auto. cbn [andb]. destruct (existsb _ l); [rewrite orb_true_r; auto|]. rewrite orb_false_r.
    replace (x' =? b + j) with (x' - b =? j) by (destruct (Z.eqb_spec (x' - b) j), (Z.eqb_spec x' (b + j)); auto; lia). destruct (x' - b =? j); auto. }
  rewrite G. rewrite <- andb_assoc. replace ((lo <=? x' - b) && (x' - b <? hi)) with (existsb (Z.eqb (x' - b)) (zrange lo hi)); auto.
  destruct (existsb (Z.eqb (x' - b)) (zrange lo hi)) eqn:E.
  - apply existsb_exists in E. destruct E as (z & Hz & E). apply in_zrange in Hz. apply Z.eqb_eq in E. symmetry. apply andb_true_iff. lia.
  - symmetry. apply not_true_iff_false. intros H. apply not_true_iff_false in E. apply E. apply existsb_exists. exists (x' - b). split; [apply in_zrange; lia|lia].
Qed.

(** The cells of a bar of ten cells for a probability. *)
Definition bar_layer (t : tnode) (selected : bool) (state : Z) (evidence : bool) (ip : Z * xnum) (full part : Z) : layer :=
  let '(i, p) := ip in
  let '(l, r) := if selected && (state =? i) then (sym_selection_start, sym_selection_end)
                 else if evidence then (sym_evidence, sym_evidence) else (sym_empty, sym_empty) in
  over (dots [(i + 2, 1, l); (i + 2, b_w (t_bounds t) - 2, r)])
  (over (strip (i + 2) (t_bars t + max_bars + 1) (b_w (t_bounds t)) (bar_text p))
  (over (dots (map (fun j => (i + 2, t_bars t + j, sym_shade)) (zrange (if 0 <? part then full + 1 else full) max_bars)))
  (over (if 0 <? part then dot (i + 2) (t_bars t + full) (nth (Z.to_nat part) sym_partial 0) else blank)
        (dots (map (fun j => (i + 2, t_bars t + j, sym_full)) (zrange 0 full)))))).

Lemma draw_bar_ok t selected state evidence i p full part : node_ok t -> is_utility (t_var t) = false -> 0 <= i < zlen (t_outcomes t) -> bar_ok p ->
  bar_parts p = Ok (full, part) ->
  paints (b_w (t_bounds t)) (b_h (t_bounds t)) (fun g => draw_bar t selected state evidence g (i, p)) (bar_layer t selected state evidence (i, p) full part).
Proof.
  intros Hn Hu Hi Hp Ep. destruct (bar_parts_ok p Hp) as (f' & p' & E & Hf & Hpa & Hle). rewrite Ep in E. injection E as <- <-.
  pose proof (state_len_range (t_var t)) as Hs. pose proof (node_width (t_var t)) as Hw. pose proof (node_height (t_var t)) as Hh. rewrite Hu in Hw, Hh.
  pose proof (no_bars t Hn) as Hb. rewrite <- (no_w t Hn) in Hw. rewrite <- (no_h t Hn) in Hh. unfold t_outcomes in Hi.
  set (w := b_w (t_bounds t)) in *. set (h := b_h (t_bounds t)) in *. unfold draw_bar, bar_layer. rewrite Ep. cbn [gbind].
  set (lr := if selected && (state =? i) then _ else _). destruct lr as [l r].
  assert (P1 : paints w h (fun g => puts g (map (fun j => (i + 2, t_bars t + j, sym_full)) (zrange 0 full))) (dots (map (fun j => (i + 2, t_bars t + j, sym_full)) (zrange 0 full)))).
  { apply paints_puts. intros y x z Hin. apply in_map_iff in Hin. destruct Hin as (j & E & Hj). injection E as <- <- <-. apply in_zrange in Hj. lia. }
  set (full2 := if 0 <? part then full + 1 else full).
  assert (Hf2 : full <= full2) by (unfold full2; destruct (0 <? part); lia).
  assert (P3 : paints w h (fun g => puts g (map (fun j => (i + 2, t_bars t + j, sym_shade)) (zrange full2 max_bars))) (dots (map (fun j => (i + 2, t_bars t + j, sym_shade)) (zrange full2 max_bars)))).
  { apply paints_puts. intros y x z Hin. apply in_map_iff in Hin. destruct Hin as (j & E & Hj). injection E as <- <- <-. apply in_zrange in Hj. unfold max_bars in Hj. lia. }
  assert (P4 : paints w h (fun g => copy2 g (i + 2) (t_bars t + max_bars + 1) None (bar_text p)) (strip (i + 2) (t_bars t + max_bars + 1) w (bar_text p))).
  { unfold max_bars. apply paints_copy2; lia. }
  assert (P5 : paints w h (fun g => puts g [(i + 2, 1, l); (i + 2, w - 2, r)]) (dots [(i + 2, 1, l); (i + 2, w - 2, r)])).
  { apply paints_puts. intros y x z [E|[E|[]]]; injection E as <- <- <-; lia. }
  assert (P2 : paints w h (fun g => if 0 <? part then put g (i + 2) (t_bars t + full) (nth (Z.to_nat part) sym_partial 0) else Ok g)
     (if 0 <? part then dot (i + 2) (t_bars t + full) (nth (Z.to_nat part) sym_partial 0) else blank)).
  { destruct (Z.ltb_spec 0 part); [apply paints_put; lia|apply paints_none]. }
  pose proof (paints_seq w h _ _ _ _ (paints_seq w h _ _ _ _ (paints_seq w h _ _ _ _ (paints_seq w h _ _ _ _ P1 P2) P3) P4) P5) as P.
  intros g Hg. destruct (P g Hg) as (g' & E & Hg' & Hpx). exists g'. split; [|split; auto].
  rewrite <- E. destruct (puts g (map _ (zrange 0 full))) as [g1| |]; cbn [gbind]; auto. unfold full2. destruct (Z.ltb_spec 0 part).
  - replace (sget sym_partial part) with (Ok (nth (Z.to_nat part) sym_partial 0)).
    2:{ destruct (sget_in sym_partial part) as (x & Ex & _); [change (zlen sym_partial) with 7; lia|]. rewrite Ex. apply sget_inv in Ex. destruct Ex as [_ Ex]. f_equal. apply nth_error_nth. auto. }
    cbn [gbind]. destruct (put g1 _ _ _) as [g2| |]; cbn [gbind]; auto. destruct (puts g2 _) as [g3| |]; cbn [gbind]; auto.
  - cbn [gbind]. destruct (puts g1 _) as [g3| |]; cbn [gbind]; auto.
Qed.

(** The cells drawn do not depend on the numbers. *)
Definition bar_cells (t : tnode) (i y x : Z) : Prop :=
  y = i + 2 /\ (x = 1 \/ x = b_w (t_bounds t) - 2 \/ t_bars t <= x < t_bars t + 10 \/ t_bars t + 11 <= x < t_bars t + 18).
Lemma over_some V2 V1 y x : over V2 V1 y x <> None <-> V2 y x <> None \/ V1 y x <> None.
Proof. unfold over. destruct (V2 y x); [split; auto; discriminate|]. split; [right; auto|intros [H|H]; auto]. Qed.
Lemma bar_layer_cells t selected state evidence i p full part y x : node_ok t -> is_utility (t_var t) = false -> bar_ok p -> bar_parts p = Ok (full, part) ->
  (bar_layer t selected state evidence (i, p) full part y x <> None <-> bar_cells t i y x).
Proof.
  intros Hn Hu Hp Ep. destruct (bar_parts_ok p Hp) as (f' & p' & E & Hf & Hpa & Hle). rewrite Ep in E. injection E as <- <-.
  pose proof (node_width (t_var t)) as Hw. rewrite Hu in Hw. pose proof (no_bars t Hn) as Hb. rewrite <- (no_w t Hn) in Hw.
  unfold bar_layer, bar_cells. destruct (if selected && (state =? i) then _ else _) as [l r]. rewrite !over_some, dots_some, strip_some, !dots_run, (bar_text_len p Hp). unfold max_bars.
  assert (D : forall (b : bool) (r0 : Z), (if b then Some r0 else None) <> None <-> b = true) by (intros [|] r0; split; congruence). rewrite !D.
  assert (D2 : (if 0 <? part then dot (i + 2) (t_bars t + full) (nth (Z.to_nat part) sym_partial 0) else blank) y x <> None <-> 0 < part /\ y = i + 2 /\ x = t_bars t + full).
  { destruct (Z.ltb_spec 0 part); [|unfold blank; split; [congruence|lia]]. unfold dot. rewrite D. lia. }
  rewrite D2. cbn [In]. split.
  - intros [(z & [E|[E|[]]])|[H|[H|[H|H]]]]; try (injection E as <- <- <-; lia); try lia; destruct (0 <? part) eqn:E0; lia.
  - intros (-> & [->|[->|[H|H]]]).
    + left. exists l. auto.
    + left. exists r. auto.
    + right. right. destruct (Z.ltb_spec 0 part).
      * destruct (Z.lt_trichotomy (x - t_bars t) full) as [H1|[H1|H1]]; [right; right; lia|right; left; lia|left; lia].
      * destruct (Z.lt_ge_cases (x - t_bars t) full) as [H1|H1]; [right; right; lia|left; lia].
    + right. left. lia.
Qed.

Definition bar_of (t : tnode) (selected : bool) (state : Z) (evidence : bool) (ip : Z * xnum) : layer :=
  match bar_parts (snd ip) with Ok (full, part) => bar_layer t selected state evidence ip full part | _ => blank end.
Definition text_of (t : tnode) (ip : Z * xnum) : layer := strip (fst ip + 2) (t_bars t + 1) (b_w (t_bounds t)) (utility_text (snd ip)).
Definition numbered_probs (probs : list xnum) : list (Z * xnum) := combine (zrange 0 (zlen probs)) probs.
Definition border_dots (b : bounds) (selected : bool) : list (Z * Z * Z) :=
  let w := b_w b in let h := b_h b in
  [(0, 0, border_nw selected); (0, w - 1, border_ne selected); (h - 1, 0, border_sw selected); (h - 1, w - 1, border_se selected)] ++
  flat_map (fun i => [(0, i, border_h selected); (h - 1, i, border_h selected)]) (zrange 1 (w - 1)) ++
  flat_map (fun i => [(i, 0, border_v selected); (i, w - 1, border_v selected)]) (zrange 1 (h - 1)).
(** What is drawn on a node. *)
Definition node_layer (t : tnode) (probs : list xnum) (selected : bool) (state : Z) (evidence : bool) : layer :=
  over (if is_utility (t_var t) then layers (text_of t) (numbered_probs probs) else layers (bar_of t selected state evidence) (numbered_probs probs))
       (dots (border_dots (t_bounds t) selected)).

Lemma border_in b selected y x r : In (y, x, r) (border_dots b selected) -> 1 <= b_w b -> 1 <= b_h b -> 0 <= y < b_h b /\ 0 <= x < b_w b.
Proof.
  unfold border_dots. intros H Hw Hh. apply in_app_iff in H. destruct H as [H|H].
  - cbn [In] in H. destruct H as [E|[E|[E|[E|[]]]]]; injection E as <- <- <-; lia.
  - apply in_app_iff in H. destruct H as [H|H]; apply in_flat_map in H; destruct H as (i & Hi & H); apply in_zrange in Hi; cbn [In] in H; destruct H as [E|[E|[]]]; injection E as <- <- <-; lia.
Qed.
Lemma draw_border_ok b selected : 1 <= b_w b -> 1 <= b_h b -> paints (b_w b) (b_h b) (draw_border b selected) (dots (border_dots b selected)).
Proof. intros Hw Hh. apply (paints_puts (b_w b) (b_h b) (border_dots b selected)). intros y x r Hin. eapply border_in; eauto. Qed.
Lemma in_numbered {X} (l : list X) i x : In (i, x) (combine (zrange 0 (zlen l)) l) -> 0 <= i < zlen l /\ nth_error l (Z.to_nat i) = Some x.
Proof.
  intros H. apply In_nth_error in H. destruct H as [k Hk]. rewrite numbered_at in Hk. destruct (nth_error l k) as [x'|] eqn:E; [|discriminate]. injection Hk as <- <-.
  assert (k < List.length l)%nat by (apply nth_error_Some; congruence). unfold zlen. rewrite Nat2Z.id. split; auto. lia.
Qed.

Lemma node_sizes t : node_ok t -> 18 <= b_w (t_bounds t) /\ 3 <= b_h (t_bounds t) /\ 3 <= t_bars t /\ t_bars t + 15 <= b_w (t_bounds t).
Proof.
  intros Hn. pose proof (node_width (t_var t)) as Hw. pose proof (node_height (t_var t)) as Hh. rewrite <- (no_w t Hn) in Hw. rewrite <- (no_h t Hn) in Hh.
  pose proof (state_len_range (t_var t)). pose proof (zlen_nonneg (nv_outcomes (t_var t))). pose proof (no_bars t Hn). destruct (is_utility (t_var t)); lia.
Qed.
Lemma draw_node_ok t probs selected state evidence : node_ok t -> fits (t_var t) probs ->
  paints (b_w (t_bounds t)) (b_h (t_bounds t))
    (fun g => let! g := draw_border (t_bounds t) selected g in if is_utility (t_var t) then draw_utility t probs g else draw_bars t probs selected state evidence g)
    (node_layer t probs selected state evidence).
Proof.
  intros Hn Hf. destruct (node_sizes t Hn) as (Hw & Hh & Hb & Hbw). unfold node_layer. apply paints_seq; [apply draw_border_ok; lia|].
  pose proof (node_height (t_var t)) as Hh'. rewrite <- (no_h t Hn) in Hh'. unfold fits in Hf. destruct (is_utility (t_var t)) eqn:Hu.
  - unfold draw_utility. fold (numbered_probs probs).
    eapply paints_ext; [| |apply (paints_list _ _ (fun g '((i, p) : Z * xnum) => copy2 g (i + 2) (t_bars t + 1) None (utility_text p)) (text_of t) (numbered_probs probs))]; try reflexivity.
    intros [i p] Hin. apply in_numbered in Hin. apply (paints_copy2 _ _ (i + 2) (t_bars t + 1) None (utility_text p)); lia.
  - destruct Hf as [Hl Hall]. unfold draw_bars. fold (numbered_probs probs). apply paints_list. intros [i p] Hin. apply in_numbered in Hin. destruct Hin as [Hi Hp].
    apply nth_error_In in Hp. rewrite Forall_forall in Hall. specialize (Hall p Hp). destruct (bar_parts_ok p Hall) as (full & part & Ep & _).
    unfold bar_of. cbn [snd]. rewrite Ep. apply draw_bar_ok; auto. unfold t_outcomes. lia.
Qed.
Theorem render_node_ok t probs selected state evidence : node_ok t -> fits (t_var t) probs ->
  exists g, render_node t probs selected state evidence = Ok (with_runes t g) /\ node_ok (with_runes t g) /\
    forall y x, 0 <= y < b_h (t_bounds t) -> 0 <= x < b_w (t_bounds t) ->
      px g y x = match node_layer t probs selected state evidence y x with Some r => Ok r | None => px (t_runes t) y x end.
Proof.
  intros Hn Hf. destruct (draw_node_ok t probs selected state evidence Hn Hf (t_runes t) (no_runes t Hn)) as (g & E & Hg & Hpx). exists g. unfold render_node.
  destruct (draw_border (t_bounds t) selected (t_runes t)) as [g0| |]; cbn [gbind] in *; try discriminate. rewrite E. split; auto. split; auto.
  destruct Hn as [H1 H2 H3 H4 H5 H6]. constructor; auto.
Qed.

(** ** Drawing again *)
(** A utility whose text has the usual length. *)
Definition short (p : xnum) : Prop := zlen (utility_text p) = 12.
Definition all_short (t : tnode) (p : list xnum) : Prop := is_utility (t_var t) = true -> Forall short p.
Lemma node_layer_cells t p1 s1 st1 e1 p2 s2 st2 e2 : node_ok t -> all_short t p1 -> all_short t p2 -> fits (t_var t) p1 -> fits (t_var t) p2 -> List.length p1 = List.length p2 ->
  forall y x, node_layer t p1 s1 st1 e1 y x <> None -> node_layer t p2 s2 st2 e2 y x <> None.
Proof.
  intros Hn Hu1 Hu2 Hf1 Hf2 Hlen y x. unfold node_layer, fits, all_short in *. rewrite !over_some, !dots_some.
  assert (Hat : forall i p, In (i, p) (numbered_probs p1) -> exists p', In p p1 /\ In p' p2 /\ In (i, p') (numbered_probs p2)).
  { intros i p Hin. apply in_numbered in Hin as Hin'. destruct Hin' as [Hi Hp]. assert (Hk : (Z.to_nat i < List.length p2)%nat) by (rewrite <- Hlen; apply nth_error_Some; congruence).
    destruct (nth_error p2 (Z.to_nat i)) as [p'|] eqn:Ep'; [|apply nth_error_None in Ep'; lia]. exists p'. split; [eapply nth_error_In; eauto|]. split; [eapply nth_error_In; eauto|].
    eapply nth_error_In with (n := Z.to_nat i). unfold numbered_probs. rewrite numbered_at, Ep'. cbn [option_map]. do 2 f_equal. lia. }
  intros [HV|(r & Hr)].
  - left. destruct (is_utility (t_var t)) eqn:Hu; rewrite layers_some in *; destruct HV as ([i p] & Hin & HV); destruct (Hat i p Hin) as (p' & Ip & Ip' & Hin'); exists (i, p'); (split; [exact Hin'|]).
    + specialize (Hu1 eq_refl). specialize (Hu2 eq_refl). rewrite Forall_forall in Hu1, Hu2. specialize (Hu1 _ Ip). specialize (Hu2 _ Ip'). unfold short in *.
      unfold text_of in *. cbn [fst snd] in *. rewrite strip_some in *. rewrite Hu1 in HV. rewrite Hu2. exact HV.
    + destruct Hf1 as [_ Hf1], Hf2 as [_ Hf2]. rewrite Forall_forall in Hf1, Hf2. specialize (Hf1 _ Ip). specialize (Hf2 _ Ip'). destruct (bar_parts_ok p Hf1) as (f1 & q1 & E1 & _). destruct (bar_parts_ok p' Hf2) as (f2 & q2 & E2 & _).
      unfold bar_of in *. cbn [snd] in *. rewrite E1 in HV. rewrite E2. apply (bar_layer_cells t s1 st1 e1 i p f1 q1) in HV; auto. apply (bar_layer_cells t s2 st2 e2 i p' f2 q2); auto.
  - right. unfold border_dots in *. apply in_app_iff in Hr. destruct Hr as [Hr|Hr].
    + cbn [In] in Hr. destruct Hr as [E|[E|[E|[E|[]]]]]; injection E as <- <- <-; eexists; apply in_or_app; left; cbn [In]; auto.
    + apply in_app_iff in Hr. destruct Hr as [H|H]; apply in_flat_map in H; destruct H as (i & Hi & H); cbn [In] in H; destruct H as [E|[E|[]]]; injection E as <- <- <-; eexists; apply in_or_app; right; apply in_or_app;
      [left|left|right|right]; apply in_flat_map; exists i; split; auto; cbn [In]; auto.
Qed.
(** The picture of a node does not depend on what was drawn before, if utilities are short. *)
Theorem render_node_fresh t p1 s1 st1 e1 p2 s2 st2 e2 t1 : node_ok t -> all_short t p1 -> all_short t p2 -> fits (t_var t) p1 -> fits (t_var t) p2 -> List.length p1 = List.length p2 ->
  render_node t p1 s1 st1 e1 = Ok t1 -> render_node t1 p2 s2 st2 e2 = render_node t p2 s2 st2 e2.
Proof.
  intros Hn Hu1 Hu2 Hf1 Hf2 Hlen E1. destruct (render_node_ok t p1 s1 st1 e1 Hn Hf1) as (g1 & E1' & Hn1 & P1). rewrite E1 in E1'. injection E1' as ->.
  destruct (render_node_ok t p2 s2 st2 e2 Hn Hf2) as (g2 & E2 & Hn2 & P2). destruct (render_node_ok (with_runes t g1) p2 s2 st2 e2 Hn1 Hf2) as (g3 & E3 & Hn3 & P3).
  rewrite E2, E3. change (with_runes (with_runes t g1) g3) with (with_runes t g3). do 2 f_equal.
  apply (grid_ext (b_w (t_bounds t)) (b_h (t_bounds t))); [apply (no_runes _ Hn3)|apply (no_runes _ Hn2)|].
  intros y x Hy Hx. rewrite P2, P3 by auto. change (node_layer (with_runes t g1) p2 s2 st2 e2 y x) with (node_layer t p2 s2 st2 e2 y x). cbn [t_runes with_runes].
  destruct (node_layer t p2 s2 st2 e2 y x) eqn:E; auto. rewrite P1 by auto. destruct (node_layer t p1 s1 st1 e1 y x) eqn:E'; auto.
  exfalso. apply (node_layer_cells t p1 s1 st1 e1 p2 s2 st2 e2 Hn Hu1 Hu2 Hf1 Hf2 Hlen y x); congruence.
Qed.

(** ** New nodes *)
Definition known_color (v : nvar) : Prop := nv_color v = "" \/ In (nv_color v) color_names.
Lemma color_known v : known_color v -> exists c, node_color v = Ok c /\ 0 <= c < 16.
Proof.
  unfold known_color, node_color. intros [->|H].
  - simpl. destruct (nv_type v); eexists; split; try reflexivity; unfold color_white, color_green, color_blue; lia.
  - destruct (String.eqb (nv_color v) ""); [destruct (nv_type v); eexists; split; try reflexivity; unfold color_white, color_green, color_blue; lia|].
    unfold color_names in H. cbn [In] in H. repeat (destruct H as [<-|H]; [eexists; split; [vm_compute; reflexivity|lia]|]). destruct H.
Qed.
Lemma draw_title_ok v b g : 5 <= b_w b -> 2 <= b_h b -> shaped (b_w b) (b_h b) g -> exists g', draw_title v b g = Ok g' /\ shaped (b_w b) (b_h b) g'.
Proof.
  intros Hw Hh Hg. unfold draw_title.
  destruct (paints_copy2 (b_w b) (b_h b) 1 2 (Some (b_w b - 2)) (runes_of (nv_name v)) ltac:(lia) ltac:(cbn; lia) ltac:(cbn; lia) g Hg) as (g1 & E1 & S1 & _). rewrite E1. cbn [gbind].
  destruct (nv_type v); [eauto| |].
  - destruct (paints_put (b_w b) (b_h b) 1 (b_w b - 3) (rune "!") ltac:(lia) ltac:(lia) g1 S1) as (g2 & E2 & S2 & _). eauto.
  - destruct (paints_put (b_w b) (b_h b) 1 (b_w b - 3) (rune "$") ltac:(lia) ltac:(lia) g1 S1) as (g2 & E2 & S2 & _). eauto.
Qed.
Lemma draw_labels_ok v w h bars g : 3 <= bars -> bars <= w -> h = zlen (nv_outcomes v) + (if is_utility v then 4 else 3) -> shaped w h g ->
  exists g', draw_labels v bars g = Ok g' /\ shaped w h g'.
Proof.
  intros Hb Hw Hh Hg. assert (Hh2 : zlen (nv_outcomes v) + 3 <= h) by (destruct (is_utility v); lia). unfold draw_labels.
  destruct (paints_list w h (fun g '((i, label) : Z * string) => copy2 g (i + 2) 2 (Some (bars - 1)) (runes_of label)) (fun '((i, label) : Z * string) => strip (i + 2) 2 (bars - 1) (runes_of label))
    (combine (zrange 0 (zlen (nv_outcomes v))) (nv_outcomes v))) with (g := g) as (g1 & E1 & S1 & _); auto.
  { intros [i label] Hin. apply in_numbered in Hin. apply (paints_copy2 w h (i + 2) 2 (Some (bars - 1)) (runes_of label)); lia. }
  rewrite E1. cbn [gbind]. destruct (is_utility v); [|eauto]. pose proof (zlen_nonneg (nv_outcomes v)).
  destruct (paints_copy2 w h (zlen (nv_outcomes v) + 2) 2 (Some (bars - 1)) (runes_of "total") ltac:(lia) ltac:(cbn; lia) ltac:(cbn; lia) g1 S1) as (g2 & E2 & S2 & _). eauto.
Qed.
Theorem new_node_ok v f : known_color v -> exists t, new_node v f = Ok t /\ node_ok t /\ t_var t = v /\ t_factor t = f /\ t_bounds t = node_bounds v.
Proof.
  intros Hc. unfold new_node. destruct (color_known v Hc) as (c & Enc & Hc16). rewrite Enc.
  pose proof (node_width v) as Hw. pose proof (node_height v) as Hh. pose proof (state_len_range v) as Hs. pose proof (zlen_nonneg (nv_outcomes v)) as Hz.
  assert (Hw' : 18 <= b_w (node_bounds v) /\ state_len v + 3 <= b_w (node_bounds v)) by (destruct (is_utility v); lia). assert (Hh' : 3 <= b_h (node_bounds v)) by (destruct (is_utility v); lia).
  destruct (make_grid_ok (node_bounds v) sym_empty) as (g0 & E0 & S0 & _); try lia. rewrite E0. cbn [gbind].
  destruct (make_grid_ok (node_bounds v) c) as (gc & Ec & Sc & Hcol); try lia. rewrite Ec. cbn [gbind].
  destruct (draw_border_ok (node_bounds v) false ltac:(lia) ltac:(lia) g0 S0) as (g1 & E1 & S1 & _). rewrite E1. cbn [gbind].
  destruct (draw_title_ok v (node_bounds v) g1 ltac:(lia) ltac:(lia) S1) as (g2 & E2 & S2). rewrite E2. cbn [gbind].
  destruct (draw_labels_ok v (b_w (node_bounds v)) (b_h (node_bounds v)) (state_len v + 3) g2 ltac:(lia) ltac:(lia) Hh S2) as (g3 & E3 & S3). rewrite E3. cbn [gbind].
  eexists. split; [reflexivity|]. split; [|auto]. constructor; cbn [t_bars t_var t_bounds t_runes t_colors]; auto.
  - intros row k Hr Hk. rewrite (Hcol row Hr) in Hk. apply repeat_spec in Hk. lia.
  - exists c. split; auto. intros row k Hr Hk. rewrite (Hcol row Hr) in Hk. apply repeat_spec in Hk. auto.
Qed.
