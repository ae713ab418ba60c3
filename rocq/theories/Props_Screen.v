(** Properties C74-C76: what the terminal application shows (internal/tui).
    The vocabulary is in SpecTui.v and SpecApp.v, the model in TuiModel.v, the proofs in Tui*.v. *)
From Coq Require Import ZArith List Bool String Lia QArith Qcanon Qabs.
From Verif Require Import Num GoBase VarModel XnumFacts VEModel SpecVE NetModel SpecNet NetCheck SpecNetPolicy NetPolicyThms DocModel CliModel TuiModel SpecTui SpecApp SpecScreen
  TuiGrid TuiDraw TuiCanvas TuiApp TuiSession TuiStart TuiTwice TuiMore TuiPicture TuiShown TuiRoutes TuiHues Props_VE Props_Net Props_Tui.
Import ListNotations.
Open Scope string_scope.
Open Scope list_scope.
Open Scope Z_scope.

Definition small_b (x : Qc) : bool := negb (qlt x (- Q2Qc 9999999)%Qc) && negb (qlt (Q2Qc 9999999) x).
Definition small_utilities_b (n : network xnum) : bool :=
  forallb (fun s => small_b (utility_of n s) &&
    forallb (fun f => small_b (one_utility n (nf_for f) s)) (utility_tables n) &&
    match total_factor n with Some f => forallb (fun '(u, w) => match w with Fin w => small_b (one_utility n u s * w)%Qc | _ => true end) (combine (nf_given f) (slice_of (nf_table f))) | None => true end)
    (worlds_of n).
Lemma small_b_sound x : small_b x = true -> small x.
Proof.
  unfold small_b, small. rewrite andb_true_iff, !negb_true_iff. intros [H1 H2]. split; apply Qcnot_lt_le; intros H; apply qlt_spec in H; congruence.
Qed.
Lemma small_utilities_b_sound n : small_utilities_b n = true -> small_utilities n.
Proof.
  unfold small_utilities_b. rewrite forallb_forall. intros H s Hs. specialize (H s Hs). rewrite !andb_true_iff in H. destruct H as [[H1 H2] H3]. rewrite forallb_forall in H2. split; [apply small_b_sound; auto|].
  intros u. split.
  - destruct (in_dec string_dec u (map nf_for (utility_tables n))) as [Hin|Hn].
    + apply in_map_iff in Hin. destruct Hin as (f & <- & Hf). apply small_b_sound. auto.
    + unfold one_utility. replace (filter (fun f => String.eqb (nf_for f) u) (utility_tables n)) with (@nil (nfactor xnum)); [cbn; apply small_b_sound; vm_compute; reflexivity|].
      symmetry. induction (utility_tables n) as [|f l IH]; auto. cbn [filter]. destruct (String.eqb_spec (nf_for f) u); [exfalso; apply Hn; left; auto|]. apply IH; [intros; apply H2; right; auto|intros Hc; apply Hn; right; auto].
  - intros f w Ef Hin. rewrite Ef in H3. rewrite forallb_forall in H3. specialize (H3 _ Hin). apply small_b_sound. auto.
Qed.

(** ** C74: the pictures of the nodes *)

(** In every state reached, each cell of the screen with a node shows the character of the topmost node there: border, name, and
    for each outcome the label, the bar and the number for the current evidence. *)
Theorem C74_pictures : forall n ev other_digit scp a i v t y x, solvable n -> showable n -> valid_observations n ev -> small_utilities n -> reached other_digit scp n ev a ->
  nth_error (n_vars n) i = Some v -> nth_error (a_nodes a) i = Some t -> inside (t_bounds t) x y = true ->
  (forall j u, (i < j)%nat -> nth_error (a_nodes a) j = Some u -> inside (t_bounds u) x y = false) ->
  exists n' tables, net_solve_policies scp n true = (n', Ok tables) /\ b_w (t_bounds t) = box_width v /\ b_h (t_bounds t) = box_height v /\
  px (a_canvas a) y x = Ok (node_char v (shown_numbers n' (a_ignore a) (a_evidence a) v) (Z.of_nat i =? a_selected a) (a_state a) (has_key (a_evidence a) (nv_name v))
    (y - b_y (t_bounds t)) (x - b_x (t_bounds t))).
Proof.
  intros n ev od scp a i v t y x Hso Hsw Hev Hs Hr Hv Ht Hin Htop. destruct (node_shown n ev Hso Hsw Hev od scp a i v t Hr Hs Hv Ht) as (n' & tables & Ep & Hw & Hh & Hc). exists n', tables. split; auto. split; auto. split; auto.
  destruct (screen_ok n ev Hso Hsw Hev od scp a Hr) as (W & H & _ & _ & _ & Hpx & _). destruct (Hpx i t y x Ht Hin Htop) as (r & E1 & E2). rewrite E2, <- E1.
  unfold inside in Hin. rewrite !andb_true_iff in Hin. apply Hc; lia.
Qed.
(** The numbers are shown rounded to three decimals: the text is a decimal number that differs by at most half a unit of the last place. *)
Theorem C74_texts : (forall q, exists r, reads (utility_text (Fin q)) r /\ (Qabs (r - this q) <= 1 # 2000)%Q) /\
  (forall p, exists r, reads (bar_text (Fin p)) r /\ (Qabs (r - this p * 100) <= 1 # 2000)%Q).
Proof.
  split; [intros q; apply (fmt_fixed_reads 12 q)|]. intros p. destruct (fmt_fixed_reads 7 (p * Q2Qc 100)%Qc) as (r & H1 & H2). exists r. split; auto.
  assert (E : (this (p * Q2Qc 100)%Qc == this p * 100)%Q) by (unfold Qcmult; cbn [this Q2Qc]; rewrite !Qred_correct; reflexivity). rewrite E in H2. exact H2.
Qed.
Definition coin : network xnum := built (net_new "coin" "" [at_ 0 0 (node Chance "coin" ["heads"; "tails"]); at_ 30 0 (node Utility "money" ["won"])]
  [cpt "coin" [] [1#1; 1#1]; cpt "money" ["coin"] [10000000000#1; -10000000000#1]]).
Definition canvas_of (r : gores app) : grid := match r with Ok a => a_canvas a | _ => [] end.
Definition status_of (r : gores app) := match r with Ok a => Some (a_selected a, a_state a, a_evidence a, a_ignore a) | _ => None end.
(** Without the restriction on utilities this is false: choosing heads and taking it back leaves characters of a longer number on the screen. *)
Theorem C74_long_refuted : solvable coin /\ showable coin /\
  exists a b, reached no_digit sched_id coin [] a /\ reached no_digit sched_id coin [] b /\
    a_selected a = a_selected b /\ a_state a = a_state b /\ a_evidence a = a_evidence b /\ a_ignore a = a_ignore b /\ a_canvas a <> a_canvas b.
Proof.
  split; [right; split; [reflexivity|]; split; [apply network_b_sound; vm_compute; reflexivity|]; split; [apply complete_b_sound; vm_compute; reflexivity|]; split; [apply nonnegative_b_sound; vm_compute; reflexivity|]; split; [|reflexivity]; apply plain_utilities_b_sound; vm_compute; reflexivity|].
  split; [apply showable_b_sound; vm_compute; reflexivity|].
  assert (Ha : is_ok (after coin [] []) = true) by (vm_compute; reflexivity). assert (Hb : is_ok (after coin [] [Press KEnter; Press KEnter]) = true) by (vm_compute; reflexivity).
  assert (E : status_of (after coin [] []) = status_of (after coin [] [Press KEnter; Press KEnter])) by (vm_compute; reflexivity).
  assert (Ec : px (canvas_of (after coin [] [])) 2 49 = Ok 32 /\ px (canvas_of (after coin [] [Press KEnter; Press KEnter])) 2 49 = Ok 48) by (split; vm_compute; reflexivity).
  destruct (after coin [] []) as [a| |] eqn:Ea; try discriminate Ha. destruct (after coin [] [Press KEnter; Press KEnter]) as [b| |] eqn:Eb; try discriminate Hb.
  exists a, b. split; [apply (after_reached coin [] []); [vm_compute; reflexivity|exact Ea]|]. split; [apply (after_reached coin [] [Press KEnter; Press KEnter]); [vm_compute; reflexivity|exact Eb]|].
  cbn [status_of canvas_of] in *. injection E as E1 E2 E3 E4. repeat match goal with |- _ /\ _ => split end; auto. intros Hc. destruct Ec as [C1 C2]. rewrite Hc in C1. rewrite C1 in C2. discriminate C2.
Qed.
Definition picture_of (v : nvar) (numbers : list xnum) (selected : bool) (state : Z) (evidence : bool) : list (list Z) :=
  map (fun y => map (node_char v numbers selected state evidence y) (zrange 0 (box_width v))) (zrange 0 (box_height v)).
Example C74_example : solvable show /\ showable show /\ small_utilities show /\
  picture_of (node Chance "weather" ["sunny"; "rainy"]) [Fin (qc (98#107)); Fin (qc (9#107))] true 0 false = map runes_of
   ["╔══════════════════════════╗";
    "║ weather                  ║";
    "║[sunny █████████▎  91.589]║";
    "║ rainy ▊░░░░░░░░░   8.411 ║";
    "╚══════════════════════════╝"] /\
  picture_of (node Utility "mood" ["value"]) [Fin (qc (9800#107)); NaN] false 0 false = map runes_of
   ["┌─────────────────────┐";
    "│ mood              $ │";
    "│ value        91.589 │";
    "│ total           ??? │";
    "└─────────────────────┘"] /\
  firstn 5 (canvas_of (after show [("forecast", "sunny")] [])) = map (fun s => runes_of s)
   ["╔══════════════════════════╗                                   ";
    "║ weather                  ║                                   ";
    "║[sunny █████████▎  91.589]║                                   ";
    "║ rainy ▊░░░░░░░░░   8.411 ║                                   ";
    "╚══════════════════════════╝────────────┐                      "] /\
  reads (runes_of "     -91.589") ((-91589) # 1000).
Proof.
  split; [apply show_solvable|]. split; [apply show_showable|]. split; [apply small_utilities_b_sound; vm_compute; reflexivity|]. repeat match goal with |- _ /\ _ => split end; try (vm_compute; reflexivity).
  exists 5%nat, true, (runes_of "91"), 53, 56, 57. split; [vm_compute; reflexivity|]. split; [vm_compute; discriminate|]. split; [|vm_compute; reflexivity]. vm_compute. repeat constructor; discriminate.
Qed.
Print Assumptions C74_pictures.
Print Assumptions C74_texts.
Print Assumptions C74_long_refuted.

(** ** C75: the lines between the nodes *)
(** Where no node is, the screen shows a connected line from every parent to its child, with an arrow at the end that points to the child.
    The arcs are those of the tables of the network, and of the returned policies for decisions. Later lines cover earlier ones. *)
Theorem C75_arcs : forall n ev other_digit scp a, solvable n -> showable n -> valid_observations n ev -> reached other_digit scp n ev a ->
  exists n' tables routes W H, net_solve_policies scp n true = (n', Ok tables) /\ shaped W H (a_canvas a) /\
  Forall2 (fun '(b1, b2) route => arc_drawn b1 b2 route) (arcs n tables a) routes /\
  forall y x, 0 <= y < H -> 0 <= x < W -> (forall t, In t (a_nodes a) -> inside (t_bounds t) x y = false) -> px (a_canvas a) y x = Ok (drawn (List.concat routes) y x).
Proof. intros n ev od scp a Hso Hsw Hev Hr. exact (arcs_shown n ev Hso Hsw Hev od scp a Hr). Qed.
Example C75_example : solvable show /\ showable show /\ valid_observations show [("forecast", "sunny")] /\
  canvas_of (after show [("forecast", "sunny")] []) = map (fun s => runes_of s)
   ["╔══════════════════════════╗                                   ";
    "║ weather                  ║                                   ";
    "║[sunny █████████▎  91.589]║                                   ";
    "║ rainy ▊░░░░░░░░░   8.411 ║                                   ";
    "╚══════════════════════════╝────────────┐                      ";
    "                              │         │                      ";
    "                              v         │                      ";
    "                              ┌───────────────────────────┐    ";
    "                              │ forecast                  │    ";
    "                              │+sunny  ██████████ 100.000+│    ";
    "                              │+cloudy ░░░░░░░░░░   0.000+│    ";
    "                              │+rainy  ░░░░░░░░░░   0.000+│    ";
    "                             ┌└───────────────────────────┘    ";
    "                             │          │                      ";
    "                             v          │                      ";
    "  ┌──────────────────────────┐          │                      ";
    "  │ umbrella               ! │          │                      ";
    "  │ take  ░░░░░░░░░░   0.000 │          │                      ";
    "  │ leave ██████████ 100.000 │          │                      ";
    "  └──────────────────────────┘──────────v                      ";
    "                                        ┌─────────────────────┐";
    "                                        │ mood              $ │";
    "                                        │ value        91.589 │";
    "                                        │ total        91.589 │";
    "                                        └─────────────────────┘"] /\
  (match after show [("forecast", "sunny")] [], net_solve_policies sched_id show true with Ok a, (_, Ok tables) => arcs show tables a | _, _ => [] end) =
   [(mkBounds 0 0 28 5, mkBounds 30 7 29 6); (mkBounds 30 7 29 6, mkBounds 2 15 28 5); (mkBounds 0 0 28 5, mkBounds 40 20 23 5); (mkBounds 2 15 28 5, mkBounds 40 20 23 5)].
Proof.
  split; [apply show_solvable|]. split; [apply show_showable|]. split; [apply observations_b_sound; vm_compute; reflexivity|]. split; vm_compute; reflexivity.
Qed.
Print Assumptions C75_arcs.

(** ** C76: the colors of the nodes *)
(** The color of every cell of the screen. It is the color of the topmost node there (the default color if there is none), unless all cells of the line up to it have the
    color of the last cell of the line before (black for the first line): then it is the default color. *)
Theorem C76_colors : forall n ev other_digit scp a, solvable n -> showable n -> valid_observations n ev -> reached other_digit scp n ev a ->
  exists W H, 1 <= W /\ 1 <= H /\ shaped W H (a_canvas a) /\
  forall y x, 0 <= y < H -> 0 <= x < W ->
    color_at a y x = Some (if forallb (fun x' => String.eqb (cell_tag a y x') (if y =? 0 then "[black]" else cell_tag a (y - 1) (W - 1))) (zrange 0 (x + 1)) then "[-]" else cell_tag a y x).
Proof. intros n ev od scp a Hso Hsw Hev Hr. exact (colors_shown n ev Hso Hsw Hev od scp a Hr). Qed.
(** So all nodes have their colors if no node is at the left border of the screen. *)
Theorem C76_free : forall n ev other_digit scp a, solvable n -> showable n -> valid_observations n ev -> reached other_digit scp n ev a ->
  (forall t, In t (a_nodes a) -> 0 < b_x (t_bounds t)) ->
  exists W H, shaped W H (a_canvas a) /\ forall y x, 0 <= y < H -> 0 <= x < W -> color_at a y x = Some (cell_tag a y x).
Proof.
  intros n ev od scp a Hso Hsw Hev Hr Hfree. destruct (C76_colors n ev od scp a Hso Hsw Hev Hr) as (W & H & HW & HH & Hs & Hc). exists W, H. split; auto. intros y x Hy Hx. rewrite Hc by auto. f_equal.
  assert (E0 : forall y', cell_tag a y' 0 = "[-]").
  { intros y'. unfold cell_tag. destruct (find _ _) as [t|] eqn:Ef; auto. exfalso. apply find_some in Ef. destruct Ef as [Hin Hi]. rewrite <- in_rev in Hin. apply Hfree in Hin. unfold inside in Hi. rewrite !andb_true_iff in Hi. lia. }
  destruct (forallb _ _) eqn:F; auto. rewrite forallb_forall in F. assert (H0 : In 0 (zrange 0 (x + 1))) by (apply GoFacts.in_zrange; lia). pose proof (F 0 H0) as F0. rewrite E0, String.eqb_eq in F0. rewrite <- F0 in F.
  assert (Hxx : In x (zrange 0 (x + 1))) by (apply GoFacts.in_zrange; lia). specialize (F x Hxx). rewrite String.eqb_eq in F. auto.
Qed.
Definition colored (c : string) (v : nvar) : nvar := mkNVar (nv_name v) (nv_type v) (nv_outcomes v) (nv_pos v) c (nv_factor v).
Definition red_coin : network xnum := built (net_new "coin" "" [colored "red" (at_ 0 0 (node Chance "coin" ["heads"; "tails"]))] [cpt "coin" [] [1#1; 1#1]]).
(** With a node at the left border this is false: only the first line of a red node is red. *)
Theorem C76_border_refuted : solvable red_coin /\ showable red_coin /\
  exists a, reached no_digit sched_id red_coin [] a /\
    (forall x, In x (zrange 0 28) -> color_at a 0 x = Some "[red]") /\
    forall y x, In y (zrange 1 5) -> In x (zrange 0 28) -> cell_tag a y x = "[red]" /\ color_at a y x = Some "[-]".
Proof.
  split; [right; split; [reflexivity|]; split; [apply network_b_sound; vm_compute; reflexivity|]; split; [apply complete_b_sound; vm_compute; reflexivity|]; split; [apply nonnegative_b_sound; vm_compute; reflexivity|]; split; [|reflexivity]; apply plain_utilities_b_sound; vm_compute; reflexivity|].
  split; [apply showable_b_sound; vm_compute; reflexivity|].
  assert (Ha : is_ok (after red_coin [] []) = true) by (vm_compute; reflexivity).
  assert (E : match after red_coin [] [] with Ok a => forallb (fun x => match color_at a 0 x with Some s => String.eqb s "[red]" | None => false end) (zrange 0 28) &&
    forallb (fun y => forallb (fun x => String.eqb (cell_tag a y x) "[red]" && match color_at a y x with Some s => String.eqb s "[-]" | None => false end) (zrange 0 28)) (zrange 1 5) | _ => false end = true) by (vm_compute; reflexivity).
  destruct (after red_coin [] []) as [a| |] eqn:Ea; try discriminate Ha. exists a. split; [apply (after_reached red_coin [] []); [vm_compute; reflexivity|exact Ea]|]. clear Ea Ha.
  rewrite andb_true_iff, !forallb_forall in E. destruct E as [E1 E2]. split.
  - intros x Hx. specialize (E1 x Hx). destruct (color_at a 0 x) as [s|]; [|discriminate E1]. apply String.eqb_eq in E1. congruence.
  - intros y x Hy Hx. specialize (E2 y Hy). rewrite forallb_forall in E2. specialize (E2 x Hx). rewrite andb_true_iff in E2. destruct E2 as [E2 E3]. apply String.eqb_eq in E2. split; auto. destruct (color_at a y x) as [s|]; [|discriminate E3]. apply String.eqb_eq in E3. congruence.
Qed.
Example C76_example : solvable show /\ showable show /\
  match after show [] (runes "d") with Ok a => (color_at a 16 3, color_at a 20 40, color_at a 8 31, color_at a 4 40) | _ => (None, None, None, None) end = (Some "[blue]", Some "[green]", Some "[-]", Some "[-]") /\
  match after show [] (runes "d") with Ok a => forallb (fun t => 0 <? b_x (t_bounds t)) (a_nodes a) | _ => false end = true.
Proof. split; [apply show_solvable|]. split; [apply show_showable|]. split; vm_compute; reflexivity. Qed.
Print Assumptions C76_colors.
Print Assumptions C76_free.
Print Assumptions C76_border_refuted.
