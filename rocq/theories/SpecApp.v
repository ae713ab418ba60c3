(** Specification vocabulary for sessions with the terminal application. *)
From Coq Require Import ZArith List Bool String QArith Qcanon.
From Verif Require Import Num GoBase VarModel SpecFactor NetModel SpecNet SpecNetPolicy CliModel TuiModel SpecTui.
Import ListNotations.
Open Scope string_scope.
Open Scope list_scope.
Open Scope Z_scope.

(** The decisions can be solved, or there are none. *)
Definition solvable (n : network xnum) : Prop :=
  (decision_network n /\ no_forgetting n) \/
  (decisions n = [] /\ wf_network n /\ complete n /\ nonnegative n /\ plain_utilities n /\ n_policies n = []).

(** A network that can be shown: there is something to show, colors are known, no node is left of or above the
    canvas, all nodes have tables, and the total utility has a row for each of its parents, which are other
    utilities. *)
Record showable (n : network xnum) : Prop := {
  sw_some : n_vars n <> [];
  sw_colors : forall v, In v (n_vars n) -> nv_color v = "" \/ In (nv_color v) color_names;
  sw_positions : forall v, In v (n_vars n) -> 0 <= fst (nv_pos v) /\ 0 <= snd (nv_pos v);
  sw_tables : forall v, In v (n_vars n) -> exists k f, nv_factor v = Some k /\ nth_error (n_factors n) k = Some f /\ nf_for f = nv_name v;
  sw_total : forall v f, In v (n_vars n) -> is_total n (nv_name v) = true -> total_factor n = Some f ->
    nf_given f <> [] /\ (List.length (nf_given f) <= List.length (nv_outcomes v))%nat;
  sw_parents : forall f g, total_factor n = Some f -> In g (nf_given f) -> is_total n g = false /\ kind (n_vars n) g = Some Utility
}.

(** The selected node and outcome. *)
Definition selected_node (a : app) : option tnode := if a_selected a <? 0 then None else nth_error (a_nodes a) (Z.to_nat (a_selected a)).
Definition valid_selection (a : app) : Prop :=
  exists t, selected_node a = Some t /\ 0 <= a_state a < zlen (t_outcomes t).

(** Events of the keyboard, without digits other than 0 to 9. *)
Definition plain_key (other_digit : Z -> bool) (e : event) : Prop :=
  match e with
  | Press (KRune r) => 255 < r -> other_digit r = false
  | Press _ => True
  | _ => False
  end.

(** Evidence with the outcome [o] of [x] toggled. *)
Definition toggled (ev : list (string * string)) (x o y : string) : option string :=
  if String.eqb y x then
    match sget_map ev x with
    | Some o' => if String.eqb o' o then None else Some o
    | None => Some o
    end
  else sget_map ev y.

(** What is left of a text without its tags: lines of runes. *)
Fixpoint visible (l : list token) : list (list Z) :=
  match l with
  | [] => [[]]
  | TTag _ :: l => visible l
  | TRune r :: l => match visible l with line :: more => (r :: line) :: more | [] => [[r]] end
  | TNewline :: l => [] :: visible l
  end.

(** What an event asks for, while the graph is in front. *)
Definition listening (a : app) : bool := a_running a && match a_page a with PGraph => true | _ => false end.
(** The node at a point of the graph: the first one there. *)
Definition inside (b : bounds) (x y : Z) : bool := (b_x b <=? x) && (x <? b_x b + b_w b) && (b_y b <=? y) && (y <? b_y b + b_h b).
Definition node_under (a : app) (x y : Z) : option tnode := find (fun t => inside (t_bounds t) x y) (a_nodes a).
(** The outcome in row [k] of a node, if it is not a utility. *)
Definition outcome_at (t : tnode) (k : Z) : option (string * string) :=
  match nv_type (t_var t) with
  | Utility => None
  | _ => if k <? 0 then None else option_map (fun o => (nv_name (t_var t), o)) (nth_error (nv_outcomes (t_var t)) (Z.to_nat k))
  end.
(** The outcome chosen: the selected one with Enter, or the one clicked on. *)
Definition chosen (a : app) (e : event) : option (string * string) :=
  if listening a then
    match e with
    | Press KEnter => match selected_node a with Some t => outcome_at t (a_state a) | None => None end
    | LeftClick x y => match node_under a x y with Some t => outcome_at t (y - b_y (t_bounds t) - 2) | None => None end
    | _ => None
    end
  else None.
(** The number of the node at a point of the graph: the first one there. *)
Definition number_under (a : app) (x y : Z) : option nat :=
  find (fun i => match nth_error (a_nodes a) i with Some t => inside (t_bounds t) x y | None => false end) (seq 0 (List.length (a_nodes a))).
(** The selected node and outcome after an event: Tab and Backtab go round the nodes, the space key goes round the outcomes of the
    node, and digits select outcomes if there are so many. A left click selects a node, and the outcome under it if there is one; a right click
    selects the node only. *)
Definition new_selection (a : app) (e : event) : Z * Z :=
  let same := (a_selected a, a_state a) in
  if listening a then
    match e with
    | Press KTab => ((a_selected a + 1) mod zlen (a_nodes a), 0)
    | Press KBacktab => ((a_selected a - 1) mod zlen (a_nodes a), 0)
    | Press (KRune r) =>
      match selected_node a with
      | Some t =>
        let outcomes := zlen (nv_outcomes (t_var t)) in
        if r =? rune " " then (a_selected a, (a_state a + 1) mod outcomes)
        else if (rune "1" <=? r) && (r <=? rune "9") && (r - rune "0" <=? outcomes) then (a_selected a, r - rune "1")
        else same
      | None => same
      end
    | LeftClick x y =>
      match number_under a x y, node_under a x y with
      | Some i, Some t =>
        let k := y - b_y (t_bounds t) - 2 in
        (Z.of_nat i, if (0 <=? k) && (k <? zlen (nv_outcomes (t_var t))) then k else a_state a)
      | _, _ => same
      end
    | RightClick x y => match number_under a x y with Some i => (Z.of_nat i, a_state a) | None => same end
    | _ => same
    end
  else same.
(** The page in front after an event: h shows the help, i the text of the network, t and a right click on a node the table. Esc, Enter and
    clicks close dialogs. *)
Definition new_page (a : app) (e : event) : page :=
  if a_running a then
    match a_page a, e with
    | PGraph, Press (KRune r) => if r =? rune "h" then PHelp else if r =? rune "i" then PInfo else if r =? rune "t" then PTable else PGraph
    | PGraph, RightClick x y => match node_under a x y with Some _ => PTable | None => PGraph end
    | PGraph, _ => PGraph
    | _, Press KEsc | _, Press KEnter | _, LeftClick _ _ | _, RightClick _ _ => PGraph
    | p, _ => p
    end
  else a_page a.
(** Esc ends the program, if no dialog is shown. *)
Definition still_running (a : app) (e : event) : bool := a_running a && negb (listening a && match e with Press KEsc => true | _ => false end).
(** Whether policies are to be used or not any more. *)
Definition policies_toggled (a : app) (e : event) : bool :=
  listening a && match e with Press (KRune r) => r =? rune "p" | _ => false end.
(** How far the selected node is to be moved: not beyond the upper and left border. *)
Definition displacement (a : app) (e : event) : Z * Z :=
  if listening a then
    match e, selected_node a with
    | Press (KRune r), Some t =>
      if r =? rune "w" then (0, if 0 <? b_y (t_bounds t) then -1 else 0)
      else if r =? rune "a" then ((if 0 <? b_x (t_bounds t) then -1 else 0), 0)
      else if r =? rune "s" then (0, 1)
      else if r =? rune "d" then (1, 0)
      else (0, 0)
    | _, _ => (0, 0)
    end
  else (0, 0).
Definition shifted (b : bounds) (d : Z * Z) : bounds := mkBounds (b_x b + fst d) (b_y b + snd d) (b_w b) (b_h b).

(** Events at which the program crashes: Enter with an outcome selected that the node does not have, and digits
    other than 0 to 9. *)
Definition crash (other_digit : Z -> bool) (a : app) (e : event) : Prop :=
  listening a = true /\
  ((e = Press KEnter /\ exists t, selected_node a = Some t /\ nv_type (t_var t) <> Utility /\ zlen (nv_outcomes (t_var t)) <= a_state a) \/
   (exists r, e = Press (KRune r) /\ 255 < r /\ other_digit r = true)).

(** The rows of the table of [f] with the names and entries for the parents' outcomes [s]: percentages, or
    utilities as they are. *)
Definition outcome_name (vars : list nvar) (g : string) (i : nat) : string := match var_named vars g with Some v => nth i (nv_outcomes v) "" | None => "" end.
Definition table_row (vars : list nvar) (v : nvar) (f : nfactor xnum) (s : nstate) : list tcell :=
  map (fun g => CLabel (outcome_name vars g (s g))) (nf_given f) ++
  map (fun k => let e := entry vars f (nupd s (nv_name v) k) in
         match nv_type v with
         | Utility => CNumber true (Fin e)
         | _ => CNumber false (ndiv (Fin (Q2Qc 100 * e)%Qc) (Fin (row_sum vars f s)))
         end) (seq 0 (List.length (nv_outcomes v))).

(** The dialog shows the policy of the node or its own table: the names of the parents and outcomes, and a row
    for each combination of outcomes of the parents. *)
Definition shows_table (n : network xnum) (tables : list (string * nfactor xnum)) (a : app) (v : nvar) : Prop :=
  exists f rows,
    (sget_map tables (nv_name v) = Some f \/ sget_map tables (nv_name v) = None /\ exists k, nv_factor v = Some k /\ nth_error (n_factors n) k = Some f) /\
    a_page a = PTable /\ a_table a = map CLabel (nf_given f ++ nv_outcomes v) :: rows /\
    (is_total n (nv_name v) = false ->
      List.length rows = table_size (n_vars n) (nf_given f) /\
      (forall s, (forall g, In g (nf_given f) -> (s g < num_outcomes (n_vars n) g)%nat) -> nth_error rows (cell (n_vars n) (nf_given f) s) = Some (table_row (n_vars n) v f s)) /\
      forall r, (r < List.length rows)%nat -> exists s, (forall g, In g (nf_given f) -> (s g < num_outcomes (n_vars n) g)%nat) /\ cell (n_vars n) (nf_given f) s = r).

(** The network with the nodes at other positions. *)
Definition placed (n : network xnum) (positions : list (Z * Z)) : network xnum :=
  mkNet (n_name n) (n_info n)
    (map (fun '((v, p) : nvar * (Z * Z)) => mkNVar (nv_name v) (nv_type v) (nv_outcomes v) p (nv_color v) (nv_factor v)) (combine (n_vars n) positions))
    (n_factors n) (n_policies n) (n_ve n) (n_names n) (n_tui n).

(** The state of the application after a start with network [n] and evidence [ev], and some events. *)
Definition reached (other_digit : Z -> bool) (scp : sched) (n : network xnum) (ev : list (string * string)) (a : app) : Prop :=
  exists scs a0 events, app_run scs scp n ev = Ok a0 /\ session other_digit a0 events = Ok a.

(** ** The picture of a node *)
Definition label_width (v : nvar) : Z := Z.min 16 (fold_right Z.max 0 (map (fun o => zlen (runes_of o)) (nv_outcomes v))).
Definition box_width (v : nvar) : Z := 4 + Z.max (label_width v + match nv_type v with Utility => 14 | _ => 19 end) (Z.min 48 (zlen (runes_of (nv_name v)))).
Definition box_height (v : nvar) : Z := zlen (nv_outcomes v) + match nv_type v with Utility => 4 | _ => 3 end.
(** The character with number [i] of a text, or a space. *)
Definition char_at (l : list Z) (i : Z) : Z := if i <? 0 then 32 else nth (Z.to_nat i) l 32.
(** The character [j] of ten that show a probability. *)
Definition bar_char (p : xnum) (j : Z) : Z :=
  match p with
  | Fin q =>
    let c := (this q * 10 - inject_Z j)%Q in
    if Qle_bool 1 c then rune "█"
    else if Qle_bool (1 # 7) c then char_at (runes_of "▏▎▍▌▋▊▉") (Qround.Qfloor (7 * c))
    else rune "░"
  | _ => rune "░"
  end.
(** The characters: the border, which is double if the node is selected; the name, with a sign for decisions and utilities; and for each
    outcome its name, a bar and the probability in percent, or the utilities. Brackets mark the selected outcome, plus signs evidence. *)
Definition node_char (v : nvar) (numbers : list xnum) (selected : bool) (state : Z) (evidence : bool) (y x : Z) : Z :=
  let w := box_width v in let h := box_height v in let k := y - 2 in
  if (y =? 0) && (x =? 0) then (if selected then rune "╔" else rune "┌")
  else if (y =? 0) && (x =? w - 1) then (if selected then rune "╗" else rune "┐")
  else if (y =? h - 1) && (x =? 0) then (if selected then rune "╚" else rune "└")
  else if (y =? h - 1) && (x =? w - 1) then (if selected then rune "╝" else rune "┘")
  else if (y =? 0) || (y =? h - 1) then (if selected then rune "═" else rune "─")
  else if (x =? 0) || (x =? w - 1) then (if selected then rune "║" else rune "│")
  else if y =? 1 then
    match nv_type v with
    | Decision => if x =? w - 3 then rune "!" else if x <? w - 2 then char_at (runes_of (nv_name v)) (x - 2) else 32
    | Utility => if x =? w - 3 then rune "$" else if x <? w - 2 then char_at (runes_of (nv_name v)) (x - 2) else 32
    | Chance => if x <? w - 2 then char_at (runes_of (nv_name v)) (x - 2) else 32
    end
  else
    let label := nth (Z.to_nat k) (nv_outcomes v) "total" in
    let number := nth_error numbers (Z.to_nat k) in
    let b := label_width v + 3 in
    if (2 <=? x) && (x <? b - 1) then char_at (runes_of label) (x - 2)
    else
      match nv_type v, number with
      | Utility, Some u => char_at (utility_text u) (x - b - 1)
      | Utility, None => 32
      | _, Some p =>
        if (x =? 1) then (if selected && (state =? k) then rune "[" else if evidence then rune "+" else 32)
        else if (x =? w - 2) then (if selected && (state =? k) then rune "]" else if evidence then rune "+" else 32)
        else if (b <=? x) && (x <? b + 10) then bar_char p (x - b)
        else char_at (bar_text p) (x - b - 11)
      | _, None => 32
      end.

(** The text is the decimal number [r]: spaces, perhaps a minus sign, digits, a point and three digits. *)
Definition digit (c : Z) : Prop := 48 <= c <= 57.
Definition digits_value (l : list Z) : Z := fold_left (fun v c => 10 * v + (c - 48)) l 0.
Definition reads (text : list Z) (r : Q) : Prop :=
  exists (spaces : nat) (negative : bool) (whole : list Z) (a b c : Z),
    text = repeat 32 spaces ++ (if negative then [rune "-"] else []) ++ whole ++ [rune "."; a; b; c] /\
    whole <> [] /\ Forall digit (whole ++ [a; b; c]) /\
    (r == (if negative then -(1) else 1) * (inject_Z (digits_value (whole ++ [a; b; c])) / 1000))%Q.

(** In every state of the world, all utilities, their weighted values and the total have at most seven digits before the point. *)
Definition small (x : Qc) : Prop := (- Q2Qc 9999999 <= x <= Q2Qc 9999999)%Qc.
Definition small_utilities (n : network xnum) : Prop :=
  forall s, In s (worlds_of n) -> small (utility_of n s) /\
    forall u, small (one_utility n u s) /\ forall f w, total_factor n = Some f -> In (u, Fin w) (combine (nf_given f) (slice_of (nf_table f))) -> small (one_utility n u s * w)%Qc.
