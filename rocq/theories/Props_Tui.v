(** Properties C58-C62 and C71-C73: the terminal application (internal/tui).
    The vocabulary is in SpecTui.v and SpecApp.v, the model in TuiModel.v, the proofs in Tui*.v. *)
From Coq Require Import ZArith List Bool String Lia QArith Qcanon.
From Verif Require Import Num GoBase VarModel XnumFacts VEModel SpecVE NetModel SpecNet NetCheck SpecNetPolicy NetPolicyThms DocModel CliModel TuiModel SpecTui SpecApp
  TuiGrid TuiDraw TuiCanvas TuiApp TuiSession TuiStart TuiTwice TuiMore TuiKeys Props_VE Props_Net.
Import ListNotations.
Open Scope string_scope.
Open Scope list_scope.
Open Scope Z_scope.

(** ** Example applications *)

(** The umbrella network with positions, and a network with a total utility. *)
Definition at_ (x y : Z) (v : nvar) : nvar := mkNVar (nv_name v) (nv_type v) (nv_outcomes v) (x, y) (nv_color v) (nv_factor v).
Definition show_vars := [at_ 0 0 (node Chance "weather" ["sunny"; "rainy"]); at_ 30 7 (node Chance "forecast" ["sunny"; "cloudy"; "rainy"]);
  at_ 2 15 (node Decision "umbrella" ["take"; "leave"]); at_ 40 20 (node Utility "mood" ["value"])].
Definition show_factors := [cpt "weather" [] [70#1; 30#1]; cpt "forecast" ["weather"] [70#1; 20#1; 10#1; 15#1; 25#1; 60#1];
  mkNFactor "umbrella" ["forecast"] None [] 0; cpt "mood" ["weather"; "umbrella"] [20#1; 100#1; 70#1; 0#1]].
Definition show : network xnum := built (net_new "umbrella" "" show_vars show_factors).
Definition no_app : app := mkApp show [] [] [] 0 0 false [] [] [] [] PGraph None false.
Definition start_of (n : network xnum) (ev : list (string * string)) : app := match app_run (fun _ => sched_id) sched_id n ev with Ok a => a | _ => no_app end.
Definition events_of (es : list event) : list (event * (nat -> sched)) := map (fun e => (e, fun _ : nat => sched_rev)) es.
Definition no_digit (_ : Z) : bool := false.
Definition after (n : network xnum) (ev : list (string * string)) (es : list event) : gores app := session no_digit (start_of n ev) (events_of es).
Definition runes (s : string) : list event := map (fun r => Press (KRune r)) (runes_of s).

Example show_solvable : solvable show.
Proof.
  left. split; [apply (decision_network_b_sound show (fun x => position x ["weather"; "forecast"; "umbrella"])); vm_compute; reflexivity|apply no_forgetting_b_sound; vm_compute; reflexivity].
Qed.
Definition show_vars_of := n_vars show.
Definition table_b (n : network xnum) (v : nvar) : bool :=
  match nv_factor v with Some k => match nth_error (n_factors n) k with Some f => String.eqb (nf_for f) (nv_name v) | None => false end | None => false end.
Definition showable_b (n : network xnum) : bool :=
  negb (zlen (n_vars n) =? 0) &&
  forallb (fun v => (String.eqb (nv_color v) "" || existsb (String.eqb (nv_color v)) color_names) && (0 <=? fst (nv_pos v)) && (0 <=? snd (nv_pos v)) && table_b n v &&
    (negb (is_total n (nv_name v)) || match total_factor n with Some f => negb (zlen (nf_given f) =? 0) && (zlen (nf_given f) <=? zlen (nv_outcomes v)) | None => true end)) (n_vars n) &&
  match total_factor n with Some f => forallb (fun g => negb (is_total n g) && match kind (n_vars n) g with Some Utility => true | _ => false end) (nf_given f) | None => true end.
Lemma showable_b_sound n : showable_b n = true -> showable n.
Proof.
  unfold showable_b. rewrite !andb_true_iff. intros [[H1 H2] H3]. rewrite forallb_forall in H2.
  assert (Hv : forall v, In v (n_vars n) -> (nv_color v = "" \/ In (nv_color v) color_names) /\ 0 <= fst (nv_pos v) /\ 0 <= snd (nv_pos v) /\ table_b n v = true /\
     (is_total n (nv_name v) = true -> forall f, total_factor n = Some f -> nf_given f <> [] /\ (List.length (nf_given f) <= List.length (nv_outcomes v))%nat)).
  { intros v Hv. specialize (H2 v Hv). rewrite !andb_true_iff, !orb_true_iff in H2. destruct H2 as ((((A & B) & C) & D) & E). split.
    - destruct A as [A|A]; [left; apply String.eqb_eq; auto|right]. apply existsb_exists in A. destruct A as (c & Hc & A). apply String.eqb_eq in A. subst c. auto.
    - split; [lia|]. split; [lia|]. split; auto. intros Ht f Hf. rewrite Ht, Hf in E. destruct E as [E|E]; [discriminate|]. rewrite andb_true_iff in E. unfold zlen in E. destruct (nf_given f); cbn [List.length] in *; split; [lia|lia|discriminate|lia]. }
  constructor.
  - intros E. rewrite E in H1. discriminate.
  - intros v Hin. apply (Hv v Hin).
  - intros v Hin. destruct (Hv v Hin) as (_ & A & B & _). auto.
  - intros v Hin. destruct (Hv v Hin) as (_ & _ & _ & A & _). unfold table_b in A. destruct (nv_factor v) as [k|] eqn:Ek; [|discriminate]. destruct (nth_error (n_factors n) k) as [f|] eqn:Ef; [|discriminate]. apply String.eqb_eq in A. eauto.
  - intros v f Hin Ht Hf. destruct (Hv v Hin) as (_ & _ & _ & _ & A). auto.
  - intros f g Hf Hg. rewrite Hf in H3. rewrite forallb_forall in H3. specialize (H3 g Hg). rewrite andb_true_iff, negb_true_iff in H3. destruct H3 as [A B]. split; auto. destruct (kind (n_vars n) g) as [[]|]; congruence.
Qed.
Definition plain_utilities_b (n : network xnum) : bool :=
  forallb (fun v => negb (is_kind Utility v) || is_total n (nv_name v) || ((zlen (nv_outcomes v) =? 1) && existsb (fun f => String.eqb (nf_for f) (nv_name v)) (n_factors n))) (n_vars n).
Lemma plain_utilities_b_sound n : plain_utilities_b n = true -> plain_utilities n.
Proof.
  unfold plain_utilities_b. rewrite forallb_forall. intros H v Hv Hk Ht. specialize (H v Hv). unfold is_kind in H. rewrite Hk, Ht in H. cbn in H. rewrite andb_true_iff in H. destruct H as [H1 H2]. split; [unfold zlen in H1; lia|].
  apply existsb_exists in H2. destruct H2 as (f & Hf & E). apply String.eqb_eq in E. eauto.
Qed.
Example show_showable : showable show. Proof. apply showable_b_sound. vm_compute. reflexivity. Qed.
Lemma after_reached n ev es a : is_ok (app_run (fun _ => sched_id) sched_id n ev) = true -> after n ev es = Ok a -> reached no_digit sched_id n ev a.
Proof. unfold after, start_of. intros H E. exists (fun _ => sched_id). destruct (app_run _ _ n ev) as [a0| |]; try discriminate. exists a0, (events_of es). auto. Qed.

(** ** C58: the selected outcome *)

(** With the keyboard only (and no digits of other scripts), the application starts and never crashes, and the
    selected outcome is always one of the selected node, whatever the keys. *)
Theorem C58_keyboard_partial : forall n ev scs scp other_digit events, solvable n -> showable n -> valid_observations n ev ->
  Forall (fun e => plain_key other_digit (fst e)) events ->
  exists a0 a, app_run scs scp n ev = Ok a0 /\ session other_digit a0 events = Ok a /\ valid_selection a.
Proof.
  intros n ev scs scp od events Hso Hsw Hev Hk. destruct (app_run_ok scs scp n ev Hso Hsw Hev) as (n' & tables & a0 & _ & Hst & Er & Ho & Hv & _).
  destruct (session_keys n' (start_displayable n n' tables Hsw Hst) (start_roomy n n' tables Hsw Hst) (start_linked n n' tables Hsw Hst) od events a0 Ho Hv Hk) as (a & E & _ & Hv'). eauto.
Qed.
(** With keyboard and mouse, it crashes at the events described by [crash] and at no others: Enter with an
    outcome selected that the node does not have, and digits of other scripts. *)
Theorem C58_crashes : forall n ev scs other_digit scp a e, solvable n -> showable n -> valid_observations n ev -> reached other_digit scp n ev a ->
  ((exists p, handle other_digit scs e a = Panic p) <-> crash other_digit a e) /\ (forall m, handle other_digit scs e a <> Err m).
Proof.
  intros n ev scs od scp a e Hso Hsw Hev Hr. destruct (handle_reached n ev Hso Hsw Hev od scp scs a e Hr) as [(a' & E)|[Hc (p & E)]]; rewrite E.
  - split; [|discriminate]. split; [intros (p & Ep); discriminate|]. intros Hc. destruct (crash_panics n ev Hso Hsw Hev od scp scs a e Hr Hc) as (p & Ep). congruence.
  - split; [|discriminate]. split; eauto.
Qed.
Theorem C58_starts : forall n ev scs scp, solvable n -> showable n -> valid_observations n ev -> exists a, app_run scs scp n ev = Ok a /\ valid_selection a /\ a_evidence a = ev.
Proof. intros n ev scs scp Hso Hsw Hev. destruct (app_run_ok scs scp n ev Hso Hsw Hev) as (n' & tables & a & _ & _ & Er & _ & Hv & He & _). eauto. Qed.
Definition stray : list event := [Press KTab; Press (KRune (rune "3")); LeftClick 5 1].
(** The property is false: a click on a node selects it, but keeps the number of the outcome. Enter then crashes. *)
Theorem C58_mouse_refuted : exists n ev a, solvable n /\ showable n /\ valid_observations n ev /\ reached no_digit sched_id n ev a /\ ~ valid_selection a /\
  exists p, handle no_digit (fun _ => sched_id) (Press KEnter) a = Panic p.
Proof.
  exists show, []. assert (E : exists a, after show [] stray = Ok a /\ a_selected a = 0 /\ a_state a = 2 /\ handle no_digit (fun _ => sched_id) (Press KEnter) a = Panic PIndex /\
    match selected_node a with Some t => zlen (t_outcomes t) | None => 0 end = 2).
  { destruct (after show [] stray) as [a| |] eqn:E; [|exfalso|exfalso].
    - exists a. split; auto.
      assert (G : match after show [] stray with Ok a => (a_selected a, a_state a, match handle no_digit (fun _ => sched_id) (Press KEnter) a with Panic PIndex => true | _ => false end, match selected_node a with Some t => zlen (t_outcomes t) | None => 0 end) | _ => (7, 7, false, 7) end = (0, 2, true, 2)) by (vm_compute; reflexivity).
      rewrite E in G. injection G as G1 G2 G3 G4. split; auto. split; auto. split; auto. destruct (handle no_digit (fun _ => sched_id) (Press KEnter) a) as [| |[]]; congruence.
    - assert (G : is_ok (after show [] stray) = true) by (vm_compute; reflexivity). rewrite E in G. discriminate G.
    - assert (G : is_ok (after show [] stray) = true) by (vm_compute; reflexivity). rewrite E in G. discriminate G. }
  destruct E as (a & E & E1 & E2 & E3 & E4). exists a. split; [apply show_solvable|]. split; [apply show_showable|]. split; [apply observations_b_sound; vm_compute; reflexivity|].
  split; [apply (after_reached show [] stray a); [vm_compute; reflexivity|exact E]|]. split; [|eauto]. intros (t & Et & Hs). rewrite Et in E4. lia.
Qed.
(** A digit of another script is taken for a digit, but cannot be read as a number. *)
Theorem C58_digits_refuted : forall n ev scs other_digit scp a r, solvable n -> showable n -> valid_observations n ev -> reached other_digit scp n ev a -> listening a = true ->
  255 < r -> other_digit r = true -> exists p, handle other_digit scs (Press (KRune r)) a = Panic p.
Proof. intros n ev scs od scp a r Hso Hsw Hev Hr Hl H1 H2. apply (crash_panics n ev Hso Hsw Hev od scp); auto. split; auto. right. eauto. Qed.
Example C58_example : solvable show /\ showable show /\ valid_observations show [("weather", "sunny")] /\
  match after show [("weather", "sunny")] (Press KBacktab :: Press KBacktab :: runes "  2" ++ [Press KEnter; Press KTab; Press KTab; Press (KRune (rune "d")); Press KCtrlS]) with
  | Ok a => Some (a_selected a, a_state a, a_evidence a) | _ => None end = Some (0, 0, [("weather", "sunny"); ("umbrella", "leave")]).
Proof. split; [apply show_solvable|]. split; [apply show_showable|]. split; [apply observations_b_sound; vm_compute; reflexivity|vm_compute; reflexivity]. Qed.
Print Assumptions C58_keyboard_partial.
Print Assumptions C58_crashes.
Print Assumptions C58_starts.
Print Assumptions C58_mouse_refuted.
Print Assumptions C58_digits_refuted.

(** ** C59: the canvas *)

(** After any events, all nodes are within the canvas. The text on the screen is the canvas. Each point of a node that is
    not covered by a later node shows the picture of the node, and the points outside of the nodes show the edges,
    drawn on an empty canvas without an error. That no event fails because of drawing is C58_crashes. *)
Theorem C59_canvas : forall n ev other_digit scp a, solvable n -> showable n -> valid_observations n ev -> reached other_digit scp n ev a ->
  exists W H, shaped W H (a_canvas a) /\ visible (a_text a) = a_canvas a /\
  (forall t, In t (a_nodes a) -> 0 <= b_x (t_bounds t) /\ 0 <= b_y (t_bounds t) /\ b_x (t_bounds t) + b_w (t_bounds t) <= W /\ b_y (t_bounds t) + b_h (t_bounds t) <= H) /\
  (forall i t y x, nth_error (a_nodes a) i = Some t -> inside (t_bounds t) x y = true -> (forall j u, (i < j)%nat -> nth_error (a_nodes a) j = Some u -> inside (t_bounds u) x y = false) ->
     exists r, px (t_runes t) (y - b_y (t_bounds t)) (x - b_x (t_bounds t)) = Ok r /\ px (a_canvas a) y x = Ok r) /\
  exists bg, render_edges (a_nodes a) (repeat (repeat sym_empty (Z.to_nat W)) (Z.to_nat H)) = Ok bg /\
    forall y x, 0 <= y < H -> 0 <= x < W -> (forall t, In t (a_nodes a) -> inside (t_bounds t) x y = false) -> px (a_canvas a) y x = px bg y x.
Proof. intros n ev od scp a Hso Hsw Hev Hr. apply (screen_ok n ev Hso Hsw Hev od scp a Hr). Qed.
(** The umbrella moved up to the border and to the right, over the forecast. *)
Example C59_example : match after show [] (Press KTab :: Press KTab :: runes "wwwwwwwwwwwwwwwwwwddddddddddddd") with
  | Ok a => Some (map (fun t => (b_x (t_bounds t), b_y (t_bounds t))) (a_nodes a), firstn 14 (a_canvas a)) | _ => None end =
  Some ([(0, 0); (30, 7); (15, 0); (40, 20)], map runes_of
   ["┌──────────────╔══════════════════════════╗                    ";
    "│ weather      ║ umbrella               ! ║                    ";
    "│ sunny ███████║[take  ██▌░░░░░░░  25.000]║                    ";
    "│ rainy ███░░░░║ leave ███████▌░░  75.000 ║                    ";
    "└──────────────╚══════════════════════════╝                    ";
    "                              │     ^   ││                     ";
    "                              v     │   ││                     ";
    "                              ┌───────────────────────────┐    ";
    "                              │ forecast                  │    ";
    "                              │ sunny  █████▍░░░░  53.500 │    ";
    "                              │ cloudy ██▎░░░░░░░  21.500 │    ";
    "                              │ rainy  ██▌░░░░░░░  25.000 │    ";
    "                              └───────────────────────────┘    ";
    "                                        ││                     "]).
Proof. vm_compute. reflexivity. Qed.
Print Assumptions C59_canvas.

(** ** C60: evidence *)

(** After any events, the evidence has at most one entry for each node, no entries for utilities, and only outcomes of the
    nodes. *)
Theorem C60_evidence_valid : forall n ev other_digit scp a, solvable n -> showable n -> valid_observations n ev -> reached other_digit scp n ev a ->
  valid_observations n (a_evidence a).
Proof. intros n ev od scp a Hso Hsw Hev Hr. apply (evidence_valid n ev Hso Hsw Hev od scp a Hr). Qed.
(** Evidence changes only by choosing an outcome, with Enter or a click on it: it becomes the evidence of its node, or is
    removed if it was. *)
Theorem C60_evidence_changes : forall n ev scs other_digit scp a e a', solvable n -> showable n -> valid_observations n ev -> reached other_digit scp n ev a ->
  handle other_digit scs e a = Ok a' ->
  forall y, sget_map (a_evidence a') y = match chosen a e with Some (x, o) => toggled (a_evidence a) x o y | None => sget_map (a_evidence a) y end.
Proof. intros n ev scs od scp a e a' Hso Hsw Hev Hr E. apply (step_reached n ev Hso Hsw Hev od scp scs a e a' Hr E). Qed.
(** Choosing an outcome twice restores the evidence, if the node had no evidence or that outcome. *)
Theorem C60_twice_partial : forall n ev scs scs' other_digit scp a e x o, solvable n -> showable n -> valid_observations n ev -> reached other_digit scp n ev a ->
  chosen a e = Some (x, o) -> sget_map (a_evidence a) x = None \/ sget_map (a_evidence a) x = Some o ->
  exists a1 a2, handle other_digit scs e a = Ok a1 /\ handle other_digit scs' e a1 = Ok a2 /\ forall y, sget_map (a_evidence a2) y = sget_map (a_evidence a) y.
Proof. intros n ev scs scs' od scp a e x o Hso Hsw Hev Hr. apply (chosen_twice n ev Hso Hsw Hev od scp scs scs' a e x o Hr). Qed.
(** It is false if the node had another outcome as evidence: that is lost, always. *)
Theorem C60_twice_refuted : forall n ev scs scs' other_digit scp a e x o o' a1 a2, solvable n -> showable n -> valid_observations n ev -> reached other_digit scp n ev a ->
  chosen a e = Some (x, o) -> sget_map (a_evidence a) x = Some o' -> o' <> o ->
  handle other_digit scs e a = Ok a1 -> handle other_digit scs' e a1 = Ok a2 -> sget_map (a_evidence a2) x = None.
Proof. intros n ev scs scs' od scp a e x o o' a1 a2 Hso Hsw Hev Hr. apply (chosen_lost n ev Hso Hsw Hev od scp scs scs' a e x o o' a1 a2 Hr). Qed.
Definition picked (r : gores app) (e : event) := match r with Ok a => Some (chosen a e, a_evidence a) | _ => None end.
Example C60_example : let cloudy := Press KEnter in let sunny := LeftClick 35 9 in
  picked (after show [] (Press KTab :: runes " ")) cloudy = Some (Some ("forecast", "cloudy"), []) /\
  picked (after show [] (Press KTab :: runes " " ++ [cloudy])) cloudy = Some (Some ("forecast", "cloudy"), [("forecast", "cloudy")]) /\
  picked (after show [] (Press KTab :: runes " " ++ [cloudy; cloudy])) cloudy = Some (Some ("forecast", "cloudy"), []) /\
  picked (after show [] (Press KTab :: runes " " ++ [cloudy])) sunny = Some (Some ("forecast", "sunny"), [("forecast", "cloudy")]) /\
  picked (after show [] (Press KTab :: runes " " ++ [cloudy; sunny])) sunny = Some (Some ("forecast", "sunny"), [("forecast", "sunny")]) /\
  picked (after show [] (Press KTab :: runes " " ++ [cloudy; sunny; sunny])) sunny = Some (Some ("forecast", "sunny"), []).
Proof. cbv zeta. repeat match goal with |- _ /\ _ => split end; vm_compute; reflexivity. Qed.
Print Assumptions C60_evidence_valid.
Print Assumptions C60_evidence_changes.
Print Assumptions C60_twice_partial.
Print Assumptions C60_twice_refuted.

(** ** C61: the table dialog *)

(** The key t shows the table of the selected node, the right mouse button that of the node clicked on. For nodes other
    than the total utility, it has one row for each combination of the parents' outcomes, with the names of the outcomes
    and the entries of the table for this combination. *)
Theorem C61_key : forall n ev scs other_digit scp a, solvable n -> showable n -> valid_observations n ev -> reached other_digit scp n ev a -> listening a = true ->
  exists n' tables t a', net_solve_policies scp n true = (n', Ok tables) /\ selected_node a = Some t /\ handle other_digit scs (Press (KRune (rune "t"))) a = Ok a' /\
    shows_table n tables a' (t_var t).
Proof. intros n ev scs od scp a Hso Hsw Hev Hr. apply (table_key n ev Hso Hsw Hev od scp scs a Hr). Qed.
Theorem C61_click : forall n ev scs other_digit scp a x y t, solvable n -> showable n -> valid_observations n ev -> reached other_digit scp n ev a -> listening a = true ->
  node_under a x y = Some t ->
  exists n' tables a', net_solve_policies scp n true = (n', Ok tables) /\ handle other_digit scs (RightClick x y) a = Ok a' /\ shows_table n tables a' (t_var t).
Proof. intros n ev scs od scp a x y t Hso Hsw Hev Hr. apply (table_click n ev Hso Hsw Hev od scp scs a x y t Hr). Qed.
Definition cell_text (c : tcell) : string * shown := match c with CLabel s => (s, SNaN) | CNumber _ x => ("", xshow x) end.
Definition dialog (r : gores app) := match r with Ok a => map (map cell_text) (a_table a) | _ => [] end.
Definition L (s : string) : string * shown := (s, SNaN).
Definition V (q : Q) : string * shown := ("", SFin q).
Example C61_example :
  dialog (after show [] (Press KTab :: runes "t")) =
    [[L "weather"; L "sunny"; L "cloudy"; L "rainy"]; [L "sunny"; V (70#1); V (20#1); V (10#1)]; [L "rainy"; V (15#1); V (25#1); V (60#1)]] /\
  dialog (after show [] [RightClick 42 21]) =
    [[L "weather"; L "umbrella"; L "value"]; [L "sunny"; L "take"; V (20#1)]; [L "sunny"; L "leave"; V (100#1)]; [L "rainy"; L "take"; V (70#1)]; [L "rainy"; L "leave"; V (0#1)]] /\
  dialog (after show [] (Press KTab :: Press KTab :: runes "t")) =
    [[L "forecast"; L "take"; L "leave"]; [L "sunny"; V (0#1); V (100#1)]; [L "cloudy"; V (0#1); V (100#1)]; [L "rainy"; V (100#1); V (0#1)]].
Proof. repeat match goal with |- _ /\ _ => split end; vm_compute; reflexivity. Qed.
Print Assumptions C61_key.
Print Assumptions C61_click.

(** ** C62: the numbers *)

(** After any events, the numbers of the nodes are those of the network with the policies of SolvePolicies, for the current
    evidence: see [shown_numbers]. *)
Theorem C62_numbers : forall n ev other_digit scp a, solvable n -> showable n -> valid_observations n ev -> reached other_digit scp n ev a ->
  exists n' tables, net_solve_policies scp n true = (n', Ok tables) /\ displayed n' (a_ignore a) (a_evidence a) (a_marginals a).
Proof. intros n ev od scp a Hso Hsw Hev Hr. apply (numbers_ok n ev Hso Hsw Hev od scp a Hr). Qed.
(** The command bbn inference computes the same numbers. *)
Theorem C62_inference : forall n scs scp texts ev, solvable n -> showable n -> parse_evidence texts = Ok ev -> valid_observations n ev ->
  exists n' tables m, net_solve_policies scp n true = (n', Ok tables) /\ run_inference scs scp n texts = Ok (ev, m) /\ displayed n' false ev m.
Proof. intros n scs scp texts ev Hso Hsw Hp Hev. destruct (run_inference_ok scs scp n texts ev Hso Hsw Hp Hev) as (n' & tables & m & H1 & _ & H2 & H3). eauto 6. Qed.
Definition tot_shown : network xnum := built (net_new "total" "some words" tot_vars tot_factors).
Example tot_solvable : solvable tot_shown /\ showable tot_shown.
Proof.
  split; [|apply showable_b_sound; vm_compute; reflexivity]. right. split; [reflexivity|]. split; [apply network_b_sound; vm_compute; reflexivity|]. split; [apply complete_b_sound; vm_compute; reflexivity|].
  split; [apply nonnegative_b_sound; vm_compute; reflexivity|]. split; [|reflexivity]. apply plain_utilities_b_sound. vm_compute. reflexivity.
Qed.
Definition numbers (r : gores app) := match r with Ok a => map (fun '(x, l) => (x, map xshow l)) (a_marginals a) | _ => [] end.
Example C62_example :
  numbers (after show [] (Press KTab :: runes " " ++ [Press KEnter])) =
    [("forecast", [SFin 0; SFin 1; SFin 0]); ("weather", [SFin (28#43); SFin (15#43)]); ("umbrella", [SFin 0; SFin 1]); ("mood", [SFin (2800#43); SFin (2800#43)])] /\
  numbers (after tot_shown [] [Press KEsc; Press KTab]) = [("weather", [SFin (7#10); SFin (3#10)]); ("fun", [SFin 73; SFin 54]); ("cost", [SFin (-19#2); SFin 54]); ("total", [SFin 73; SFin (-19); SFin 54])].
Proof. split; vm_compute; reflexivity. Qed.
Print Assumptions C62_numbers.
Print Assumptions C62_inference.

(** ** C71: the numbers depend on the evidence only *)

(** In any two states with the same evidence and the same use of policies, the numbers are the same, however the states were
    reached. In particular, choosing an outcome twice (C60) restores the numbers. *)
Theorem C71_same_numbers : forall n ev other_digit scp a b, solvable n -> showable n -> valid_observations n ev -> reached other_digit scp n ev a -> reached other_digit scp n ev b ->
  a_ignore a = a_ignore b -> (forall x, sget_map (a_evidence a) x = sget_map (a_evidence b) x) -> forall x, sget_map (a_marginals a) x = sget_map (a_marginals b) x.
Proof. intros n ev od scp a b Hso Hsw Hev Ha Hb. apply (numbers_same n ev Hso Hsw Hev od scp a b Ha Hb). Qed.
(** The key p changes the use of policies, and nothing else does. *)
Theorem C71_policies : forall n ev scs other_digit scp a e a', solvable n -> showable n -> valid_observations n ev -> reached other_digit scp n ev a ->
  handle other_digit scs e a = Ok a' -> a_ignore a' = if policies_toggled a e then negb (a_ignore a) else a_ignore a.
Proof. intros n ev scs od scp a e a' Hso Hsw Hev Hr E. apply (step_reached n ev Hso Hsw Hev od scp scs a e a' Hr E). Qed.
Example C71_example :
  let keys := [Press KTab; Press KTab; Press KEnter] in
  numbers (after show [] keys) = numbers (after show [] (keys ++ runes "pp")) /\
  numbers (after show [] (keys ++ runes "p")) = [("umbrella", [SFin 1; SFin 0]); ("weather", [SFin (7#10); SFin (3#10)]); ("forecast", [SFin (107#200); SFin (43#200); SFin (1#4)]); ("mood", [SFin 35; SFin 35])] /\
  numbers (after show [] keys) = [("umbrella", [SFin 1; SFin 0]); ("weather", [SFin (7#25); SFin (18#25)]); ("forecast", [SFin 0; SFin 0; SFin 1]); ("mood", [SFin 56; SFin 56])].
Proof. cbv zeta. repeat match goal with |- _ /\ _ => split end; vm_compute; reflexivity. Qed.
Print Assumptions C71_same_numbers.
Print Assumptions C71_policies.

(** ** C72: moving nodes *)

(** The keys w, a, s and d move the selected node by one, but not beyond the upper or left border. Nothing else moves
    nodes. *)
Theorem C72_moves : forall n ev scs other_digit scp a e a', solvable n -> showable n -> valid_observations n ev -> reached other_digit scp n ev a ->
  handle other_digit scs e a = Ok a' ->
  forall i t t', nth_error (a_nodes a) i = Some t -> nth_error (a_nodes a') i = Some t' ->
    t_bounds t' = if Z.of_nat i =? a_selected a then shifted (t_bounds t) (displacement a e) else t_bounds t.
Proof. intros n ev scs od scp a e a' Hso Hsw Hev Hr E. apply (step_reached n ev Hso Hsw Hev od scp scs a e a' Hr E). Qed.
(** At the start the nodes are at the positions in the network. *)
Theorem C72_start : forall n ev scs scp a, solvable n -> showable n -> valid_observations n ev -> app_run scs scp n ev = Ok a ->
  map (fun t => (nv_name (t_var t), (b_x (t_bounds t), b_y (t_bounds t)))) (a_nodes a) = map (fun v => (nv_name v, nv_pos v)) (n_vars n).
Proof. intros n ev scs scp a Hso Hsw Hev E. apply (start_places n ev scs scp a Hso Hsw Hev E). Qed.
Example C72_example : match after show [] (Press KTab :: runes "waasd" ++ Press KBacktab :: runes "wasds") with Ok a => places a | _ => [] end = [(1, 2); (29, 7); (2, 15); (40, 20)].
Proof. vm_compute. reflexivity. Qed.
Print Assumptions C72_moves.
Print Assumptions C72_start.

(** ** C73: saving *)

(** Ctrl-S writes the document of the network that was loaded, with the nodes where they are shown. *)
Theorem C73_saved : forall n ev scs other_digit scp a, solvable n -> showable n -> valid_observations n ev -> reached other_digit scp n ev a -> listening a = true ->
  exists d a', handle other_digit scs (Press KCtrlS) a = Ok a' /\ a_saved a' = Some d /\
    to_yaml (placed n (map (fun t => (b_x (t_bounds t), b_y (t_bounds t))) (a_nodes a))) = Ok d.
Proof. intros n ev scs od scp a Hso Hsw Hev Hr. apply (saved_ok n ev Hso Hsw Hev od scp scs a Hr). Qed.
Example C73_example : match after show [] (Press KTab :: Press KEnter :: runes "waasd" ++ [Press KCtrlS; Press KTab; Press (KRune (rune "s"))]) with
  | Ok a => match a_saved a with Some d => map (fun y => (y_name y, y_pos y, y_given y, map (map xshow) (y_table y))) (yd_vars d) | None => [] end | _ => [] end =
  [("weather", (0, 0), [], [[SFin 70; SFin 30]]); ("forecast", (29, 7), ["weather"], [[SFin 70; SFin 20; SFin 10]; [SFin 15; SFin 25; SFin 60]]);
   ("umbrella", (2, 15), ["forecast"], []); ("mood", (40, 20), ["weather"; "umbrella"], [[SFin 20]; [SFin 100]; [SFin 70]; [SFin 0]])].
Proof. vm_compute. reflexivity. Qed.
Print Assumptions C73_saved.

(** ** C77: the selection *)

(** Each event selects the node and outcome given by [new_selection]: Tab and Backtab go round the nodes, the space key goes round the outcomes, digits
    and clicks select directly. *)
Theorem C77_selection : forall n ev scs other_digit scp a e a', solvable n -> showable n -> valid_observations n ev -> reached other_digit scp n ev a ->
  handle other_digit scs e a = Ok a' -> (a_selected a', a_state a') = new_selection a e.
Proof. intros n ev scs od scp a e a' Hso Hsw Hev R H. apply (step_keys n ev Hso Hsw Hev od scp scs a e a' R H). Qed.

Theorem C77_start : forall n ev scs scp a, solvable n -> showable n -> valid_observations n ev -> app_run scs scp n ev = Ok a ->
  a_selected a = 0 /\ a_state a = 0 /\ a_ignore a = false.
Proof. intros n ev scs scp a Hso Hsw Hev H. destruct (start_page n ev scs scp a Hso Hsw Hev H) as (_ & _ & A & B & C & _). auto. Qed.

(** A click selects the node shown at this point if it is the only one there. *)
Theorem C77_click_partial : forall n ev scs other_digit scp a e x y a' i t, solvable n -> showable n -> valid_observations n ev -> reached other_digit scp n ev a -> listening a = true ->
  e = LeftClick x y \/ e = RightClick x y -> handle other_digit scs e a = Ok a' -> nth_error (a_nodes a) i = Some t -> inside (t_bounds t) x y = true ->
  (forall j u, j <> i -> nth_error (a_nodes a) j = Some u -> inside (t_bounds u) x y = false) -> a_selected a' = Z.of_nat i.
Proof.
  intros n ev scs od scp a e x y a' i t Hso Hsw Hev R Hl He H Ht Hin Ho. apply (click_first n ev Hso Hsw Hev od scp scs a e x y a' i t R Hl He H Ht Hin).
  intros j u Hj Hu. apply (Ho j u); [lia|auto].
Qed.
(** Where nodes overlap, the last one is shown (C74), but a click never selects it. *)
Theorem C77_click_refuted : forall n ev scs other_digit scp a e x y a' i j t u, solvable n -> showable n -> valid_observations n ev -> reached other_digit scp n ev a -> listening a = true ->
  e = LeftClick x y \/ e = RightClick x y -> handle other_digit scs e a = Ok a' ->
  nth_error (a_nodes a) i = Some t -> inside (t_bounds t) x y = true -> nth_error (a_nodes a) j = Some u -> inside (t_bounds u) x y = true -> (i < j)%nat ->
  a_selected a' <> Z.of_nat j.
Proof.
  intros n ev scs od scp a e x y a' i j t u Hso Hsw Hev R Hl He H Ht Hin Hu Hun Hij.
  destruct (click_first n ev Hso Hsw Hev od scp scs a e x y a' i t R Hl He H Ht Hin) as [A _]. lia.
Qed.
(** The umbrella is moved over the weather: its name is shown at (6, 1), but a click there selects the weather. *)
Definition selection (r : gores app) := match r with Ok a => Some (a_selected a, a_state a) | _ => None end.
Definition over_weather : list event := Press KTab :: Press KTab :: runes "wwwwwwwwwwwwwww".
Example C77_example :
  map (fun k => selection (after show [] (firstn k [Press KTab; Press (KRune (rune " ")); Press (KRune (rune " ")); Press (KRune (rune " ")); Press (KRune (rune "3")); Press (KRune (rune "4")); Press KBacktab; Press KBacktab;
     LeftClick 35 11; RightClick 5 1])))
    (seq 0 11) = map Some [(0, 0); (1, 0); (1, 1); (1, 2); (1, 0); (1, 2); (1, 2); (0, 0); (3, 0); (1, 2); (0, 2)] /\
  match after show [] over_weather with Ok a => Some (a_selected a, firstn 6 (skipn 4 (nth 1 (a_canvas a) [])), places a) | _ => None end =
    Some (2, runes_of "umbrel", [(0, 0); (30, 7); (2, 0); (40, 20)]) /\
  selection (after show [] (over_weather ++ [LeftClick 6 1])) = Some (0, 0).
Proof. repeat match goal with |- _ /\ _ => split end; vm_compute; reflexivity. Qed.
Print Assumptions C77_selection.
Print Assumptions C77_start.
Print Assumptions C77_click_partial.
Print Assumptions C77_click_refuted.

(** ** C78: dialogs, the end, and the file *)

(** The page in front is the one of [new_page], the program ends with Esc only, and only Ctrl-S writes the file. *)
Theorem C78_pages : forall n ev scs other_digit scp a e a', solvable n -> showable n -> valid_observations n ev -> reached other_digit scp n ev a ->
  handle other_digit scs e a = Ok a' -> a_page a' = new_page a e /\ a_running a' = still_running a e /\ (a_saved a' <> a_saved a -> listening a = true /\ e = Press KCtrlS).
Proof.
  intros n ev scs od scp a e a' Hso Hsw Hev R H. destruct (step_keys n ev Hso Hsw Hev od scp scs a e a' R H) as (_ & A & B & C). split; [exact A|]. split; [exact B|]. destruct C as [C|C]; [auto|]. intros N. contradiction (N C).
Qed.
(** While a dialog is shown, and after the end, events close the dialog at most: all else stays as it is. *)
Theorem C78_dialogs : forall scs other_digit a e a', listening a = false -> handle other_digit scs e a = Ok a' -> a' = set_page a (new_page a e).
Proof. intros scs od a e a' Hl H. exact (deaf od scs a e a' Hl H). Qed.
(** At the start the text of the network is shown, if there is one. *)
Theorem C78_start : forall n ev scs scp a, solvable n -> showable n -> valid_observations n ev -> app_run scs scp n ev = Ok a ->
  a_page a = (if String.eqb (n_info n) "" then PGraph else PInfo) /\ a_running a = true /\ a_saved a = None.
Proof. intros n ev scs scp a Hso Hsw Hev H. destruct (start_page n ev scs scp a Hso Hsw Hev H) as (A & B & _ & _ & _ & C). auto. Qed.
Definition looks (r : gores app) := match r with Ok a => Some (a_page a, a_running a, match a_saved a with Some _ => true | None => false end) | _ => None end.
Example C78_example :
  looks (after tot_shown [] []) = Some (PInfo, true, false) /\
  looks (after tot_shown [] [Press KCtrlS; Press KTab]) = Some (PInfo, true, false) /\
  looks (after tot_shown [] [Press KEsc]) = Some (PGraph, true, false) /\
  looks (after tot_shown [] (Press KEsc :: runes "t")) = Some (PTable, true, false) /\
  looks (after tot_shown [] (Press KEsc :: runes "th")) = Some (PTable, true, false) /\
  looks (after tot_shown [] (Press KEsc :: runes "t" ++ LeftClick 1 1 :: Press KCtrlS :: runes "h")) = Some (PHelp, true, true) /\
  looks (after tot_shown [] (Press KEsc :: runes "i" ++ [Press KEnter; Press KEsc; Press KCtrlS])) = Some (PGraph, false, false).
Proof. repeat match goal with |- _ /\ _ => split end; vm_compute; reflexivity. Qed.
Print Assumptions C78_pages.
Print Assumptions C78_dialogs.
Print Assumptions C78_start.
