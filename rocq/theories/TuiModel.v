(** Model of internal/tui: the terminal application.

    Modelled: the nodes and their drawing (node.go, symbols.go, color.go), the edges and the canvas
    (render.go), the table dialog (table.go), the computation of what is shown (solve.go), the
    start of the application (app.go: Run, createCanvas) and its reaction to keys and clicks
    (input.go). Not modelled: the layout, focus and drawing of the library tview; it shows
    the text of the graph and the cells of the table, and delivers each event to the front page.
    Overflow of int is not modelled. *)
From Coq Require Import ZArith List Bool String Ascii QArith Qcanon Qround Qabs.
From Verif Require Import Num GoBase TextModel VarModel VEModel NetModel TrainModel DocModel CliModel.
Import ListNotations.
Open Scope string_scope.
Open Scope list_scope.
Open Scope Z_scope.

(** ** Text *)

(** []rune(s): decoding of UTF-8. Bytes that are not part of a valid sequence become U+FFFD each.
    utf8.RuneCountInString is the length of the result. *)
Definition cont (b : Z) : bool := (128 <=? b) && (b <=? 191).
Definition valid2 (b0 b1 : Z) : bool := (194 <=? b0) && (b0 <=? 223) && cont b1.
Definition valid3 (b0 b1 b2 : Z) : bool :=
  (224 <=? b0) && (b0 <=? 239) && cont b1 && cont b2 && (negb (b0 =? 224) || (160 <=? b1)) && (negb (b0 =? 237) || (b1 <=? 159)).
Definition valid4 (b0 b1 b2 b3 : Z) : bool :=
  (240 <=? b0) && (b0 <=? 244) && cont b1 && cont b2 && cont b3 && (negb (b0 =? 240) || (144 <=? b1)) && (negb (b0 =? 244) || (b1 <=? 143)).
Fixpoint decode (l : list Z) : list Z :=
  match l with
  | [] => []
  | b0 :: r =>
    if b0 <? 128 then b0 :: decode r
    else
      match r with
      | b1 :: r1 =>
        if valid2 b0 b1 then ((b0 - 192) * 64 + (b1 - 128)) :: decode r1
        else
          match r1 with
          | b2 :: r2 =>
            if valid3 b0 b1 b2 then ((b0 - 224) * 4096 + (b1 - 128) * 64 + (b2 - 128)) :: decode r2
            else
              match r2 with
              | b3 :: r3 =>
                if valid4 b0 b1 b2 b3
                then ((b0 - 240) * 262144 + (b1 - 128) * 4096 + (b2 - 128) * 64 + (b3 - 128)) :: decode r3
                else 65533 :: decode r
              | [] => 65533 :: decode r
              end
          | [] => 65533 :: decode r
          end
      | [] => 65533 :: decode r
      end
  end.
Definition runes_of (s : string) : list Z := decode (map (fun c => Z.of_nat (nat_of_ascii c)) (list_ascii_of_string s)).
(** A rune literal. *)
Definition rune (s : string) : Z := hd 0 (runes_of s).

(** The digits of a non-negative number. *)
Fixpoint decimal (fuel : nat) (n : Z) : list Z :=
  match fuel with
  | O => []
  | S fuel' => if n <? 10 then [48 + n] else decimal fuel' (n / 10) ++ [48 + n mod 10]
  end.
Definition pad (width : Z) (l : list Z) : list Z := repeat 32 (Z.to_nat (width - zlen l)) ++ l.
(** The nearest integer, ties to even. *)
Definition round_even (q : Q) : Z :=
  let f := Qfloor q in
  match Qcompare (q - inject_Z f) (1 # 2) with
  | Lt => f
  | Gt => f + 1
  | Eq => if Z.even f then f else f + 1
  end.
(** fmt.Sprintf("%w.3f", x) *)
Definition fmt_fixed (width : Z) (x : xnum) : list Z :=
  pad width
    match x with
    | Fin q =>
      let n := round_even (Qabs (this q) * 1000) in
      (if qlt q 0%Qc then [rune "-"] else []) ++
      decimal (S (Z.to_nat (Z.log2 n))) (n / 1000) ++ [rune "."; 48 + (n / 100) mod 10; 48 + (n / 10) mod 10; 48 + n mod 10]
    | PInf => runes_of "+Inf"
    | NInf => runes_of "-Inf"
    | NaN => runes_of "NaN"
    end.

(** ** Symbols and colors *)

(** internal/tui/symbols.go:3-10; the two styles *)
Definition border_h (s : bool) : Z := if s then rune "═" else rune "─".
Definition border_v (s : bool) : Z := if s then rune "║" else rune "│".
Definition border_ne (s : bool) : Z := if s then rune "╗" else rune "┐".
Definition border_nw (s : bool) : Z := if s then rune "╔" else rune "┌".
Definition border_se (s : bool) : Z := if s then rune "╝" else rune "┘".
Definition border_sw (s : bool) : Z := if s then rune "╚" else rune "└".
(** internal/tui/symbols.go:12-28 *)
Definition sym_empty : Z := rune " ".
Definition sym_shade : Z := rune "░".
Definition sym_full : Z := rune "█".
Definition sym_selection_start : Z := rune "[".
Definition sym_selection_end : Z := rune "]".
Definition sym_evidence : Z := rune "+".
Definition arrow_up : Z := rune "^".
Definition arrow_down : Z := rune "v".
Definition arrow_left : Z := rune "<".
Definition arrow_right : Z := rune ">".
Definition sym_partial : list Z := runes_of "▏▎▍▌▋▊▉".

(** internal/tui/color.go:3-23 and 44-80; Black is 0 *)
Definition color_names : list string :=
  ["black"; "maroon"; "green"; "olive"; "navy"; "purple"; "teal"; "silver"; "gray"; "red"; "lime"; "yellow"; "blue"; "fuchsia"; "aqua"; "white"].
Definition color_white : Z := 15.
Definition color_green : Z := 2.
Definition color_blue : Z := 12.
(** internal/tui/color.go:25-42 ColorTags *)
Definition color_tags : list string :=
  ["[black]"; "[maroon]"; "[green]"; "[olive]"; "[navy]"; "[purple]"; "[teal]"; "[silver]"; "[gray]"; "[red]"; "[lime]"; "[yellow]"; "[blue]";
   "[fuchsia]"; "[aqua]"; "[-]"].

(** ** Grids of runes or colors *)
Definition grid := list (list Z).
(** A new grid of the size of [b] filled with [zero]. *)
Definition make_grid (b : bounds) (zero : Z) : gores grid :=
  let! rows := smake (b_h b) tt in
  mapM (fun _ => smake (b_w b) zero) rows.
(** g[y][x] = r *)
Definition put (g : grid) (y x r : Z) : gores grid :=
  let! row := sget g y in
  let! row' := sset row x r in
  sset g y row'.
(** copy(row[lo:hi], src) *)
Definition copy_into (row : list Z) (lo hi : Z) (src : list Z) : gores (list Z) :=
  let! dst := sslice row lo hi in
  Ok (firstn (Z.to_nat lo) row ++ (firstn (List.length dst) src ++ skipn (List.length src) dst) ++ skipn (Z.to_nat hi) row).
(** copy(g[y][lo:hi], src), and with hi the length of the row if omitted *)
Definition copy2 (g : grid) (y lo : Z) (hi : option Z) (src : list Z) : gores grid :=
  let! row := sget g y in
  let! row' := copy_into row lo (match hi with Some h => h | None => zlen row end) src in
  sset g y row'.
(** A sequence of writes. *)
Definition puts (g : grid) (l : list (Z * Z * Z)) : gores grid := foldM (fun g '(y, x, r) => put g y x r) g l.

(** ** Nodes *)

(** internal/tui/node.go:25-31 node. [t_factor] is node.Factor as the value pointed to. *)
Record tnode := mkTNode {
  t_var : nvar;
  t_factor : option (nfactor xnum);
  t_bounds : bounds;
  t_runes : grid;
  t_colors : grid;
  t_bars : Z
}.
Definition with_factor (t : tnode) (f : nfactor xnum) : tnode := mkTNode (t_var t) (Some f) (t_bounds t) (t_runes t) (t_colors t) (t_bars t).
Definition with_runes (t : tnode) (r : grid) : tnode := mkTNode (t_var t) (t_factor t) (t_bounds t) r (t_colors t) (t_bars t).
Definition with_bounds (t : tnode) (b : bounds) : tnode := mkTNode (t_var t) (t_factor t) b (t_runes t) (t_colors t) (t_bars t).
Definition t_name (t : tnode) : string := nv_name (t_var t).
Definition t_outcomes (t : tnode) : list string := nv_outcomes (t_var t).
Definition t_kind (t : tnode) : nodeType := nv_type (t_var t).
Definition is_utility (v : nvar) : bool := nodeType_eqb (nv_type v) Utility.

(** internal/tui/node.go:94-113 nodeColor *)
Definition node_color (v : nvar) : gores Z :=
  if String.eqb (nv_color v) "" then
    match nv_type v with Chance => Ok color_white | Utility => Ok color_green | Decision => Ok color_blue end
  else
    let i := str_index color_names (nv_color v) in
    if i <? 0 then Err (EMsg "unknown node color") else Ok i.

(** internal/tui/node.go:145-163 drawBorder *)
Definition draw_border (b : bounds) (selected : bool) (g : grid) : gores grid :=
  let w := b_w b in let h := b_h b in
  puts g
    ([(0, 0, border_nw selected); (0, w - 1, border_ne selected); (h - 1, 0, border_sw selected); (h - 1, w - 1, border_se selected)] ++
     flat_map (fun i => [(0, i, border_h selected); (h - 1, i, border_h selected)]) (zrange 1 (w - 1)) ++
     flat_map (fun i => [(i, 0, border_v selected); (i, w - 1, border_v selected)]) (zrange 1 (h - 1))).

(** internal/tui/node.go:165-174 drawTitle *)
Definition draw_title (v : nvar) (b : bounds) (g : grid) : gores grid :=
  let! g := copy2 g 1 2 (Some (b_w b - 2)) (runes_of (nv_name v)) in
  match nv_type v with
  | Decision => put g 1 (b_w b - 3) (rune "!")
  | Utility => put g 1 (b_w b - 3) (rune "$")
  | Chance => Ok g
  end.

(** internal/tui/node.go:176-183 drawStateLabels *)
Definition draw_labels (v : nvar) (bars : Z) (g : grid) : gores grid :=
  let! g := foldM (fun g '((i, label) : Z * string) => copy2 g (i + 2) 2 (Some (bars - 1)) (runes_of label)) g
      (combine (zrange 0 (zlen (nv_outcomes v))) (nv_outcomes v)) in
  if is_utility v then copy2 g (zlen (nv_outcomes v) + 2) 2 (Some (bars - 1)) (runes_of "total") else Ok g.

(** internal/tui/node.go:13-16 *)
Definition max_node_label_width : Z := 48.
Definition max_state_label_width : Z := 16.
Definition max_bars : Z := 10.
Definition extra_utility_width : Z := 5.

(** internal/tui/node.go:34-43: the width of the outcome labels *)
Definition state_len (v : nvar) : Z :=
  let m := fold_left (fun m s => let cnt := zlen (runes_of s) in if m <? cnt then cnt else m) (nv_outcomes v) 0 in
  if max_state_label_width <? m then max_state_label_width else m.
(** internal/tui/node.go:44-59: the bounds *)
Definition node_bounds (v : nvar) : bounds :=
  let title := Z.min (zlen (runes_of (nv_name v))) max_node_label_width in
  let bars := if is_utility v then extra_utility_width else max_bars in
  let h := zlen (nv_outcomes v) + 3 in
  mkBounds (fst (nv_pos v)) (snd (nv_pos v)) (Z.max (state_len v + bars + 9) title + 4) (if is_utility v then h + 1 else h).

(** internal/tui/node.go:33-92 NewNode. [f] is the factor of the variable. *)
Definition new_node (v : nvar) (f : option (nfactor xnum)) : gores tnode :=
  let b := node_bounds v in
  match node_color v with
  | Err _ => Panic (PMsg "unknown node color")
  | Panic p => Panic p
  | Ok color =>
    let! runes := make_grid b sym_empty in
    let! colors := make_grid b color in
    let bars := state_len v + 3 in
    let! runes := draw_border b false runes in
    let! runes := draw_title v b runes in
    let! runes := draw_labels v bars runes in
    Ok (mkTNode v f b runes colors bars)
  end.

(** internal/tui/node.go:133-143 SelectedOutcome; None for false *)
Definition selected_outcome (t : tnode) (x y : Z) : option Z :=
  if negb (b_contains (t_bounds t) x y) then None
  else find (fun i => y =? b_y (t_bounds t) + i + 2) (zrange 0 (zlen (t_outcomes t))).

(** internal/tui/node.go:187-198: int(full) and fracIdx for a probability. NaN gives no bars. The
    conversion of infinities to int depends on the machine; here it is an index out of range
    (simplification), as on amd64. *)
Definition trunc (q : Q) : Z := Z.quot (Qnum q) (Zpos (Qden q)).
Definition bar_parts (p : xnum) : gores (Z * Z) :=
  match p with
  | NaN => Ok (0, 0)
  | Fin q =>
    let x := (this q * 10)%Q in
    Ok (trunc x, trunc ((x - inject_Z (trunc x)) * inject_Z (zlen sym_partial))%Q)
  | _ => Panic PIndex
  end.

(** internal/tui/node.go:203-208: the text beside the bars; p*100 is computed exactly *)
Definition bar_text (p : xnum) : list Z :=
  match p with
  | NaN => runes_of "    ???"
  | _ => fmt_fixed 7 (nmul p (nofint 100))
  end.

(** internal/tui/node.go:185-223 drawBars, one iteration *)
Definition draw_bar (t : tnode) (selected : bool) (state : Z) (evidence : bool) (g : grid) (ip : Z * xnum) : gores grid :=
  let '(i, p) := ip in
  let! (full, part) := bar_parts p in
  let! g := puts g (map (fun j => (i + 2, t_bars t + j, sym_full)) (zrange 0 full)) in
  let! (g, full) :=
    if 0 <? part then
      let! r := sget sym_partial part in
      let! g := put g (i + 2) (t_bars t + full) r in
      Ok (g, full + 1)
    else Ok (g, full) in
  let! g := puts g (map (fun j => (i + 2, t_bars t + j, sym_shade)) (zrange full max_bars)) in
  let! g := copy2 g (i + 2) (t_bars t + max_bars + 1) None (bar_text p) in
  let '(l, r) := if selected && (state =? i) then (sym_selection_start, sym_selection_end)
                 else if evidence then (sym_evidence, sym_evidence)
                 else (sym_empty, sym_empty) in
  puts g [(i + 2, 1, l); (i + 2, b_w (t_bounds t) - 2, r)].
Definition draw_bars (t : tnode) (probs : list xnum) (selected : bool) (state : Z) (evidence : bool) (g : grid) : gores grid :=
  foldM (draw_bar t selected state evidence) g (combine (zrange 0 (zlen probs)) probs).

(** internal/tui/node.go:225-235 drawUtility *)
Definition utility_text (p : xnum) : list Z :=
  match p with
  | NaN => runes_of "         ???"
  | _ => fmt_fixed 12 p
  end.
Definition draw_utility (t : tnode) (probs : list xnum) (g : grid) : gores grid :=
  foldM (fun g '((i, p) : Z * xnum) => copy2 g (i + 2) (t_bars t + 1) None (utility_text p)) g (combine (zrange 0 (zlen probs)) probs).

(** internal/tui/node.go:123-131 Render: the node afterwards; its runes and colors are the result *)
Definition render_node (t : tnode) (probs : list xnum) (selected : bool) (state : Z) (evidence : bool) : gores tnode :=
  let! g := draw_border (t_bounds t) selected (t_runes t) in
  let! g := if is_utility (t_var t) then draw_utility t probs g else draw_bars t probs selected state evidence g in
  Ok (with_runes t g).

(** ** What is shown: internal/tui/solve.go *)
Section Solve.
Context {A : Type} {N : NumOps A}.
(** The factors the queries work with are those of the network; [nodes] are the variables with the
    value of their Factor pointer. [scs] gives the orders of map iteration for each call. *)
Variable scs : nat -> sched.

(** internal/tui/solve.go:14-23 *)
Definition solve_names_of (ev : list (string * string)) (nodes : list (nvar * option (nfactor A))) : list string :=
  map (fun n => nv_name (fst n)) (filter (fun n => negb (is_utility (fst n)) && negb (has_key ev (nv_name (fst n)))) nodes).

(** internal/tui/solve.go:44-53 solveEvidence *)
Definition solve_evidence (n : network A) (ev : list (string * string)) : gores (list (string * list A)) :=
  foldM (fun res '((variable, value) : string * string) =>
    let! p := net_to_evidence n variable value in
    Ok (sset_map res variable p)) [] (shuffle (scs 0) 0 ev).

(** math.NaN() unless the factor has one value *)
Definition single_value (f : factor A) : A := match f_data f with [x] => x | _ => nnan end.

(** internal/tui/solve.go:65-75; [k] numbers the calls *)
Fixpoint solve_each (k : nat) (n : network A) (ev : list (string * string)) (queries : list string) (ign : bool) (res : list (string * list A))
  : network A * gores (list (string * list A)) :=
  match queries with
  | [] => (n, Ok res)
  | q :: rest =>
    let '(n, r) := net_solve_query (scs k) n ev [q] ign in
    match r with
    | Err e => (n, Err e)
    | Panic p => (n, Panic p)
    | Ok (m, _) =>
      match sget_map m q with
      | None => (n, Panic (PMsg "query variable not in result"))
      | Some l => solve_each (S k) n ev rest ign (sset_map res q l)
      end
    end
  end.
(** internal/tui/solve.go:55-77 solveQueries *)
Definition solve_queries (n : network A) (ev : list (string * string)) (queries : list string) (ign : bool) (res : list (string * list A))
  : network A * gores (A * list (string * list A)) :=
  let '(n, r) := net_solve_query (scs 1) n ev [] ign in
  match r with
  | Err e => (n, Err e)
  | Panic p => (n, Panic p)
  | Ok (_, f) =>
    let '(n, r) := solve_each 4 n ev queries ign res in
    (n, let! res := r in Ok (single_value f, res))
  end.

(** internal/tui/solve.go:83-91: the utility nodes and the total utility node *)
Definition utility_names (n : network A) (nodes : list (nvar * option (nfactor A))) : list string :=
  map (fun p => nv_name (fst (snd p)))
    (filter (fun p => negb (fst p =? n_tui n) && is_utility (fst (snd p))) (combine (zrange 0 (zlen nodes)) nodes)).
Definition total_node (n : network A) (nodes : list (nvar * option (nfactor A))) : option (nvar * option (nfactor A)) :=
  option_map snd (find (fun p => fst p =? n_tui n) (combine (zrange 0 (zlen nodes)) nodes)).

(** internal/tui/solve.go:105-118; [k] numbers the calls *)
Fixpoint solve_utilities (k : nat) (n : network A) (ev : list (string * string)) (utilities : list string) (ign : bool) (totalProb totalUtility : A)
  (res : list (string * list A)) : network A * gores (list (string * list A)) :=
  match utilities with
  | [] => (n, Ok res)
  | u :: rest =>
    let '(n, r) := net_solve_utility (scs k) n ev [] u ign in
    match r with
    | Err e => (n, Err e)
    | Panic p => (n, Panic p)
    | Ok f => solve_utilities (S k) n ev rest ign totalProb totalUtility (sset_map res u [ndiv (single_value f) totalProb; totalUtility])
    end
  end.

(** internal/tui/solve.go:120-128: the values of the total utility node *)
Definition total_values (node : nvar * option (nfactor A)) (totalUtility : A) (res : list (string * list A)) : gores (list (string * list A)) :=
  match snd node with
  | None => Panic PNil
  | Some f =>
    let! l := mapM (fun '((i, g) : Z * string) =>
        let! x := sget (slice_of (sget_map res g)) 0 in
        let! w := sget (slice_of (nf_table f)) i in
        Ok (nmul x w)) (combine (zrange 0 (zlen (nf_given f))) (nf_given f)) in
    Ok (sset_map res (nv_name (fst node)) (l ++ [totalUtility]))
  end.

(** internal/tui/solve.go:79-131 solveUtility *)
Definition solve_utility_nodes (n : network A) (nodes : list (nvar * option (nfactor A))) (ev : list (string * string)) (totalProb : A) (ign : bool)
  (res : list (string * list A)) : network A * gores (list (string * list A)) :=
  let utilities := utility_names n nodes in
  let total := total_node n nodes in
  let '(n, r) := net_solve_utility (scs 2) n ev [] "" ign in
  match r with
  | Err e => (n, Err e)
  | Panic p => (n, Panic p)
  | Ok f =>
    let totalUtility := ndiv (single_value f) totalProb in
    let '(n, r) := solve_utilities (4 + List.length nodes) n ev utilities ign totalProb totalUtility res in
    (n, let! res := r in
        match total with
        | None => Ok res
        | Some node => total_values node totalUtility res
        end)
  end.

(** internal/tui/solve.go:11-42 Solve: the network afterwards and the values by node. *)
Definition tui_solve (n : network A) (ev : list (string * string)) (nodes : list (nvar * option (nfactor A))) (ign : bool)
  : network A * gores (list (string * list A)) :=
  let queries := solve_names_of ev nodes in
  match solve_evidence n ev with
  | Err e => (n, Err e)
  | Panic p => (n, Panic p)
  | Ok res =>
    let '(n, r) := solve_queries n ev queries ign res in
    match r with
    | Err e => (n, Err e)
    | Panic p => (n, Panic p)
    | Ok (totalProb, res) => solve_utility_nodes n nodes ev totalProb ign res
    end
  end.
End Solve.

(** ** The application *)

(** The page in front: the graph, or a dialog over it. *)
Inductive page := PGraph | PTable | PHelp | PInfo.
(** The cells of the table dialog: a label, or a number that is formatted as a utility ("%9.3f") or as a
    percentage ("%7.3f%%"). *)
Inductive tcell := CLabel (s : string) | CNumber (utility : bool) (x : xnum).
(** The text of the graph: color tags, runes and line ends. *)
Inductive token := TTag (s : string) | TRune (r : Z) | TNewline.

(** internal/tui/app.go:10-37 App. [a_text] is the text of the widget graph, [a_table] are the cells of
    the widget table, [a_saved] the document last written to the save file. [a_running] is false
    after a.app.Stop(). *)
Record app := mkApp {
  a_net : network xnum;
  a_nodes : list tnode;
  a_evidence : list (string * string);
  a_marginals : list (string * list xnum);
  a_selected : Z;
  a_state : Z;
  a_ignore : bool;
  a_canvas : grid;
  a_colors : grid;
  a_text : list token;
  a_table : list (list tcell);
  a_page : page;
  a_saved : option (ydoc xnum);
  a_running : bool
}.
Definition set_nodes (a : app) (x : list tnode) : app := mkApp (a_net a) x (a_evidence a) (a_marginals a) (a_selected a) (a_state a) (a_ignore a) (a_canvas a) (a_colors a) (a_text a) (a_table a) (a_page a) (a_saved a) (a_running a).
Definition set_solution (a : app) (n : network xnum) (m : list (string * list xnum)) : app := mkApp n (a_nodes a) (a_evidence a) m (a_selected a) (a_state a) (a_ignore a) (a_canvas a) (a_colors a) (a_text a) (a_table a) (a_page a) (a_saved a) (a_running a).
Definition set_net (a : app) (n : network xnum) : app := set_solution a n (a_marginals a).
Definition set_evidence (a : app) (x : list (string * string)) : app := mkApp (a_net a) (a_nodes a) x (a_marginals a) (a_selected a) (a_state a) (a_ignore a) (a_canvas a) (a_colors a) (a_text a) (a_table a) (a_page a) (a_saved a) (a_running a).
Definition set_selection (a : app) (i s : Z) : app := mkApp (a_net a) (a_nodes a) (a_evidence a) (a_marginals a) i s (a_ignore a) (a_canvas a) (a_colors a) (a_text a) (a_table a) (a_page a) (a_saved a) (a_running a).
Definition set_ignore (a : app) (x : bool) : app := mkApp (a_net a) (a_nodes a) (a_evidence a) (a_marginals a) (a_selected a) (a_state a) x (a_canvas a) (a_colors a) (a_text a) (a_table a) (a_page a) (a_saved a) (a_running a).
Definition set_canvas (a : app) (c d : grid) : app := mkApp (a_net a) (a_nodes a) (a_evidence a) (a_marginals a) (a_selected a) (a_state a) (a_ignore a) c d (a_text a) (a_table a) (a_page a) (a_saved a) (a_running a).
Definition set_text (a : app) (x : list token) : app := mkApp (a_net a) (a_nodes a) (a_evidence a) (a_marginals a) (a_selected a) (a_state a) (a_ignore a) (a_canvas a) (a_colors a) x (a_table a) (a_page a) (a_saved a) (a_running a).
Definition set_table (a : app) (x : list (list tcell)) : app := mkApp (a_net a) (a_nodes a) (a_evidence a) (a_marginals a) (a_selected a) (a_state a) (a_ignore a) (a_canvas a) (a_colors a) (a_text a) x (a_page a) (a_saved a) (a_running a).
Definition set_page (a : app) (x : page) : app := mkApp (a_net a) (a_nodes a) (a_evidence a) (a_marginals a) (a_selected a) (a_state a) (a_ignore a) (a_canvas a) (a_colors a) (a_text a) (a_table a) x (a_saved a) (a_running a).
Definition set_saved (a : app) (x : ydoc xnum) : app := mkApp (a_net a) (a_nodes a) (a_evidence a) (a_marginals a) (a_selected a) (a_state a) (a_ignore a) (a_canvas a) (a_colors a) (a_text a) (a_table a) (a_page a) (Some x) (a_running a).
Definition stop (a : app) : app := mkApp (a_net a) (a_nodes a) (a_evidence a) (a_marginals a) (a_selected a) (a_state a) (a_ignore a) (a_canvas a) (a_colors a) (a_text a) (a_table a) (a_page a) (a_saved a) false.

(** internal/tui/app.go:67-72: nodesByName; a missing name gives 0 when read *)
Definition nodes_by_name (nodes : list tnode) (x : string) : Z :=
  match sget_map (fold_left (fun m '((i, t) : Z * tnode) => sset_map m (t_name t) i) (combine (zrange 0 (zlen nodes)) nodes) []) x with
  | Some i => i
  | None => 0
  end.

(** *** The canvas *)

(** internal/tui/app.go:136-147 createCanvas: the canvas; the grid of colors has the same shape *)
Definition canvas_bounds (nodes : list tnode) : bounds := fold_left (fun b t => b_extend b (t_bounds t)) nodes (mkBounds 0 0 1 1).
Definition create_canvas (a : app) : gores app :=
  let b := canvas_bounds (a_nodes a) in
  let! c := make_grid b 0 in
  let! d := make_grid b 0 in
  Ok (set_canvas a c d).

(** internal/tui/render.go:57-70 renderEdgeVertical *)
Definition edge_vertical (b1 b2 : bounds) (g : grid) : gores grid :=
  let xMid := Z.quot (Z.max (b_x b1) (b_x b2) + Z.min (b_x b1 + b_w b1) (b_x b2 + b_w b2)) 2 in
  if b_y b1 <? b_y b2 then
    puts g (map (fun y => (y, xMid, border_v false)) (zrange (b_y b1 + b_h b1) (b_y b2)) ++ [(b_y b2 - 1, xMid, arrow_down)])
  else
    puts g (map (fun y => (y, xMid, border_v false)) (zrange (b_y b2 + b_h b2) (b_y b1)) ++ [(b_y b2 + b_h b2, xMid, arrow_up)]).
(** internal/tui/render.go:72-85 renderEdgeHorizontal *)
Definition edge_horizontal (b1 b2 : bounds) (g : grid) : gores grid :=
  let yMid := Z.quot (Z.max (b_y b1) (b_y b2) + Z.min (b_y b1 + b_h b1) (b_y b2 + b_h b2)) 2 in
  if b_x b1 <? b_x b2 then
    puts g (map (fun x => (yMid, x, border_h false)) (zrange (b_x b1 + b_w b1) (b_x b2)) ++ [(yMid, b_x b2 - 1, arrow_right)])
  else
    puts g (map (fun x => (yMid, x, border_h false)) (zrange (b_x b2 + b_w b2) (b_x b1)) ++ [(yMid, b_x b2 + b_w b2, arrow_left)]).
(** internal/tui/render.go:87-129 renderEdgeCorner *)
Definition edge_corner (b1 b2 : bounds) (g : grid) : gores grid :=
  let downwards := b_y b1 <? b_y b2 in
  let rightwards := b_x b1 <? b_x b2 in
  let yStart := if downwards then b_y b1 + b_h b1 - 1 else b_y b1 in
  let xStart := if rightwards then b_x b2 else b_x b2 + b_w b2 - 1 in
  puts g
    ((if rightwards then
        map (fun x => (yStart, x, border_h false)) (zrange (b_x b1 + b_w b1) (b_x b2)) ++
        [(yStart, xStart, if downwards then border_ne false else border_se false)]
      else
        map (fun x => (yStart, x, border_h false)) (rev (zrange (b_x b2 + b_w b2) (b_x b1))) ++
        [(yStart, xStart, if downwards then border_nw false else border_sw false)]) ++
     (if downwards then
        map (fun y => (y, xStart, border_v false)) (zrange (yStart + 1) (b_y b2)) ++ [(b_y b2 - 1, xStart, arrow_down)]
      else
        map (fun y => (y, xStart, border_v false)) (rev (zrange (b_y b2 + b_h b2 + 1) yStart)) ++ [(b_y b2 + b_h b2, xStart, arrow_up)])).
(** internal/tui/render.go:38-55 renderEdge *)
Definition render_edge (b1 b2 : bounds) (g : grid) : gores grid :=
  let hOverlap := (b_x b2 <? b_x b1 + b_w b1) && (b_x b1 <? b_x b2 + b_w b2) in
  let vOverlap := (b_y b2 <? b_y b1 + b_h b1) && (b_y b1 <? b_y b2 + b_h b2) in
  if hOverlap then (if vOverlap then Ok g else edge_vertical b1 b2 g)
  else if vOverlap then edge_horizontal b1 b2 g
  else edge_corner b1 b2 g.
(** internal/tui/render.go:29-36 renderEdges *)
Definition render_edges (nodes : list tnode) (g : grid) : gores grid :=
  foldM (fun g t =>
    match t_factor t with
    | None => Panic PNil
    | Some f => foldM (fun g p => let! n1 := sget nodes (nodes_by_name nodes p) in render_edge (t_bounds n1) (t_bounds t) g) g (nf_given f)
    end) g nodes.

(** internal/tui/render.go:22-25: copying a node to the canvas *)
Definition paint (b : bounds) (lines : grid) (g : grid) : gores grid :=
  foldM (fun g '((i, line) : Z * list Z) => copy2 g (b_y b + i) (b_x b) None line) g (combine (zrange 0 (zlen lines)) lines).
(** internal/tui/render.go:16-27 renderNodes *)
Definition render_nodes (a : app) : gores app :=
  let! (nodes, c, d) :=
    foldM (fun '((nodes, c, d) : list tnode * grid * grid) '((i, t) : Z * tnode) =>
      let! t := render_node t (slice_of (sget_map (a_marginals a) (t_name t))) (i =? a_selected a) (a_state a) (has_key (a_evidence a) (t_name t)) in
      let! c := paint (t_bounds t) (t_runes t) c in
      let! d := paint (t_bounds t) (t_colors t) d in
      Ok ((nodes ++ [t]), c, d)) ([], a_canvas a, a_colors a) (combine (zrange 0 (zlen (a_nodes a))) (a_nodes a)) in
  Ok (set_canvas (set_nodes a nodes) c d).

(** internal/tui/render.go:131-138 clearCanvas *)
Definition clear_grid (zero : Z) (g : grid) : grid := map (map (fun _ => zero)) g.

(** internal/tui/render.go:140-161 updateCanvas: the tokens of one line, and the color of its last rune *)
Fixpoint line_tokens (prev : Z) (cells : list (Z * Z)) : gores (list token * Z) :=
  match cells with
  | [] => Ok ([], prev)
  | (r, c) :: rest =>
    let! tag := if negb (c =? prev) then let! s := sget color_tags c in Ok [TTag s] else Ok [] in
    let! (l, last) := line_tokens c rest in
    Ok (tag ++ TRune r :: l, last)
  end.
Fixpoint text_tokens (prev : Z) (lines : list (list Z * list Z)) : gores (list token) :=
  match lines with
  | [] => Ok []
  | (runes, colors) :: rest =>
    let! (l, last) := line_tokens prev (combine runes colors) in
    let! white := sget color_tags color_white in
    let! more := text_tokens last rest in
    Ok (l ++ TTag white :: (match rest with [] => [] | _ => [TNewline] end) ++ more)
  end.
Definition update_canvas (a : app) : gores app :=
  let! l := text_tokens 0 (combine (a_canvas a) (a_colors a)) in
  Ok (set_text a l).

(** internal/tui/render.go:7-14 render *)
Definition render (isUpdate : bool) (a : app) : gores app :=
  let! a :=
    if isUpdate then Ok a
    else
      let! c := render_edges (a_nodes a) (clear_grid sym_empty (a_canvas a)) in
      Ok (set_canvas a c (clear_grid color_white (a_colors a))) in
  let! a := render_nodes a in
  update_canvas a.

(** *** The table dialog *)

(** internal/tui/table.go:48-56: the product of the numbers of outcomes of the parents after [column] *)
Definition stride (nodes : list tnode) (given : list string) (column : Z) : gores Z :=
  foldM (fun s g => let! par := sget nodes (nodes_by_name nodes g) in Ok (s * zlen (t_outcomes par))) 1
    (rev (skipn (S (Z.to_nat column)) given)).

(** internal/tui/table.go:19-34 NewTable: the header and the number of columns with values *)
Definition table_header (t : tnode) : gores (list string) :=
  match t_factor t with None => Panic PNil | Some f => Ok (nf_given f ++ t_outcomes t) end.
Definition table_columns (nodes : list tnode) (t : tnode) : gores Z :=
  match t_factor t with
  | None => Panic PNil
  | Some f => let! forNode := sget nodes (nodes_by_name nodes (nf_for f)) in Ok (zlen (t_outcomes forNode))
  end.

(** internal/tui/table.go:36-79 GetCell *)
Definition get_cell (nodes : list tnode) (index : Z) (row column : Z) : gores tcell :=
  let! node := sget nodes index in
  let! header := table_header node in
  let! columns := table_columns nodes node in
  if row =? 0 then let! s := sget header column in Ok (CLabel s)
  else
    let row := row - 1 in
    match t_factor node with
    | None => Panic PNil
    | Some f =>
      if column <? zlen (nf_given f) then
        let! st := stride nodes (nf_given f) column in
        let! g := sget (nf_given f) column in
        let! parent := sget nodes (nodes_by_name nodes g) in
        if st =? 0 then Panic PDiv
        else if zlen (t_outcomes parent) =? 0 then Panic PDiv
        else
          let! s := sget (t_outcomes parent) (Z.rem (Z.quot row st) (zlen (t_outcomes parent))) in
          Ok (CLabel s)
      else
        let! values := sslice (slice_of (nf_table f)) (row * columns) ((row + 1) * columns) in
        let! x := sget values (column - zlen (nf_given f)) in
        if is_utility (t_var node) then Ok (CNumber true x)
        else Ok (CNumber false (ndiv (nmul (nofint 100) x) (fold_left nadd values n0)))
    end.
(** internal/tui/table.go:81-83 GetRowCount *)
Definition row_count (nodes : list tnode) (index : Z) : gores Z :=
  let! node := sget nodes index in
  let! columns := table_columns nodes node in
  match t_factor node with
  | None => Panic PNil
  | Some f => if columns =? 0 then Panic PDiv else Ok (Z.quot (zlen (slice_of (nf_table f))) columns + 1)
  end.
(** internal/tui/table.go:85-87 GetColumnCount *)
Definition column_count (nodes : list tnode) (index : Z) : gores Z :=
  let! node := sget nodes index in
  let! header := table_header node in
  Ok (zlen header).
(** internal/tui/input.go:167-178 showTable. The cells are computed by tview when it draws the table, all of
    them because of SetEvaluateAllRows. *)
Definition show_table (a : app) : gores app :=
  let! rows := row_count (a_nodes a) (a_selected a) in
  let! cols := column_count (a_nodes a) (a_selected a) in
  let! cells := mapM (fun r => mapM (get_cell (a_nodes a) (a_selected a) r) (zrange 0 cols)) (zrange 0 rows) in
  Ok (set_page (set_table a cells) PTable).

(** *** Events *)

(** internal/tui/input.go:158-165 updateMarginals: on an error the marginals become nil. *)
Definition node_data (a : app) : list (nvar * option (nfactor xnum)) := map (fun t => (t_var t, t_factor t)) (a_nodes a).
Definition update_marginals (scs : nat -> sched) (a : app) : app * gores unit :=
  let '(n, r) := tui_solve scs (a_net a) (a_evidence a) (node_data a) (a_ignore a) in
  match r with
  | Ok m => (set_solution a n m, Ok tt)
  | Err e => (set_solution a n [], Err e)
  | Panic p => (set_net a n, Panic p)
  end.
(** A panic if there is an error: input.go:40-42 and 212-214 *)
Definition must {S} (r : S * gores unit) : gores S :=
  match snd r with
  | Ok _ => Ok (fst r)
  | Err _ => Panic (PMsg "error")
  | Panic p => Panic p
  end.

(** internal/tui/input.go:136-156 inputEnter *)
Definition input_enter (scs : nat -> sched) (a : app) : gores app :=
  let! node := sget (a_nodes a) (a_selected a) in
  if is_utility (t_var node) then Ok a
  else
    let! value := sget (t_outcomes node) (a_state a) in
    let ev := match sget_map (a_evidence a) (t_name node) with
              | Some old => if String.eqb old value then mdel String.eqb (a_evidence a) (t_name node)
                            else sset_map (a_evidence a) (t_name node) value
              | None => sset_map (a_evidence a) (t_name node) value
              end in
    must (update_marginals scs (set_evidence a ev)).

(** internal/tui/input.go:65-76 toggleIgnorePolicy: the error of updateMarginals is not looked at. *)
Definition toggle_ignore_policy (scs : nat -> sched) (a : app) : gores app :=
  let '(a, r) := update_marginals scs (set_ignore a (negb (a_ignore a))) in
  match r with
  | Panic p => Panic p
  | _ => render true a
  end.

(** internal/tui/input.go:78-91 saveNetwork; writing the file succeeds (simplification) *)
Definition save_network (a : app) : gores app :=
  match to_yaml (a_net a) with
  | Ok d => Ok (set_saved a d)
  | Err _ => Panic (PMsg "error")
  | Panic p => Panic p
  end.

(** internal/tui/input.go:122-123: the position of a variable of the network *)
Definition move_variable (n : network xnum) (i dx dy : Z) : gores (network xnum) :=
  let! v := sget (n_vars n) i in
  let p := nv_pos v in
  let! vars := sset (n_vars n) i (mkNVar (nv_name v) (nv_type v) (nv_outcomes v) (fst p + dx, snd p + dy) (nv_color v) (nv_factor v)) in
  Ok (mkNet (n_name n) (n_info n) vars (n_factors n) (n_policies n) (n_ve n) (n_names n) (n_tui n)).

(** internal/tui/input.go:93-133 moveNode *)
Definition move_node (r : Z) (a : app) : gores app :=
  let! node := sget (a_nodes a) (a_selected a) in
  let b := t_bounds node in
  let! (dx, dy, create) :=
    if r =? rune "w" then Ok (0, (if 0 <? b_y b then -1 else 0), false)
    else if r =? rune "a" then Ok ((if 0 <? b_x b then -1 else 0), 0, false)
    else if r =? rune "s" then Ok (0, 1, zlen (a_canvas a) <=? b_y b + b_h b)
    else if r =? rune "d" then let! first := sget (a_canvas a) 0 in Ok (1, 0, zlen first <=? b_x b + b_w b)
    else Ok (0, 0, false) in
  if negb (dx =? 0) || negb (dy =? 0) then
    let! nodes := sset (a_nodes a) (a_selected a) (with_bounds node (mkBounds (b_x b + dx) (b_y b + dy) (b_w b) (b_h b))) in
    let! n := move_variable (a_net a) (a_selected a) dx dy in
    let a := set_net (set_nodes a nodes) n in
    let! a := if create : bool then create_canvas a else Ok a in
    render false a
  else Ok a.

(** internal/tui/input.go:291-304 *)
Definition select_next_node (a : app) : gores app :=
  if zlen (a_nodes a) =? 0 then Panic PDiv
  else render true (set_selection a (Z.rem (a_selected a + 1) (zlen (a_nodes a))) 0).
Definition select_previous_node (a : app) : gores app :=
  let i := a_selected a - 1 in
  render true (set_selection a (if i <? 0 then zlen (a_nodes a) - 1 else i) 0).

(** internal/tui/input.go:306-316 selectNodeOutcome for the text of one rune: Atoi accepts the ASCII digits *)
Definition select_node_outcome (r : Z) (a : app) : gores app :=
  if (48 <=? r) && (r <=? 57) then
    let idx := r - 48 - 1 in
    if 0 <=? idx then
      let! node := sget (a_nodes a) (a_selected a) in
      if idx <? zlen (t_outcomes node) then render true (set_selection a (a_selected a) idx) else Ok a
    else Ok a
  else Panic (PMsg "invalid syntax").

(** Keys: the special keys used, other special keys, and characters. *)
Inductive key := KEsc | KTab | KBacktab | KEnter | KCtrlS | KOther | KRune (r : Z).
(** Clicks are given by the position in the graph, that is the result of input.go:285-289
    mousePosInGraph. *)
Inductive event := Press (k : key) | LeftClick (x y : Z) | RightClick (x y : Z).

Section Events.
(** unicode.IsDigit for runes above U+00FF: the model is for every such set. *)
Variable other_digit : Z -> bool.
Definition is_digit (r : Z) : bool := if r <=? 255 then (48 <=? r) && (r <=? 57) else other_digit r.

(** internal/tui/input.go:16-63 inputMainPanel. Runes of special keys match none of the cases. *)
Definition input_main (scs : nat -> sched) (k : key) (a : app) : gores app :=
  match k with
  | KEsc => Ok (stop a)
  | KTab => select_next_node a
  | KBacktab => select_previous_node a
  | KEnter => let! a := input_enter scs a in render true a
  | KCtrlS => save_network a
  | KOther => move_node 0 a
  | KRune r =>
    if r =? rune " " then
      let! node := sget (a_nodes a) (a_selected a) in
      if zlen (t_outcomes node) =? 0 then Panic PDiv
      else render true (set_selection a (a_selected a) (Z.rem (a_state a + 1) (zlen (t_outcomes node))))
    else if is_digit r then select_node_outcome r a
    else if r =? rune "h" then Ok (set_page a PHelp)
    else if r =? rune "i" then Ok (set_page a PInfo)
    else if r =? rune "t" then show_table a
    else if r =? rune "p" then toggle_ignore_policy scs a
    else move_node r a
  end.

(** internal/tui/input.go:205-219: a left click in the graph; the first node that contains the point *)
Definition left_click (scs : nat -> sched) (x y : Z) (a : app) : gores app :=
  match find (fun '((i, t) : Z * tnode) => b_contains (t_bounds t) x y) (combine (zrange 0 (zlen (a_nodes a))) (a_nodes a)) with
  | None => Ok a
  | Some (i, t) =>
    let! a := match selected_outcome t x y with
              | Some o => input_enter scs (set_selection a i o)
              | None => Ok (set_selection a i (a_state a))
              end in
    render true a
  end.
(** internal/tui/input.go:221-232: a right click in the graph *)
Definition right_click (x y : Z) (a : app) : gores app :=
  match find (fun '((i, t) : Z * tnode) => b_contains (t_bounds t) x y) (combine (zrange 0 (zlen (a_nodes a))) (a_nodes a)) with
  | None => Ok a
  | Some (i, t) =>
    let! a := render true (set_selection a i (a_state a)) in
    show_table a
  end.

(** One event. The front page gets it: internal/tui/input.go:190-203 and 237-283 for dialogs (closed by
    Esc, Enter and clicks). After the end of the program nothing happens. *)
Definition handle (scs : nat -> sched) (e : event) (a : app) : gores app :=
  if negb (a_running a) then Ok a
  else
    match a_page a with
    | PGraph =>
      match e with
      | Press k => input_main scs k a
      | LeftClick x y => left_click scs x y a
      | RightClick x y => right_click x y a
      end
    | _ =>
      match e with
      | Press KEsc | Press KEnter | LeftClick _ _ | RightClick _ _ => Ok (set_page a PGraph)
      | _ => Ok a
      end
    end.
(** A session: the events with the orders of map iteration during each. *)
Definition session (a : app) (events : list (event * (nat -> sched))) : gores app :=
  foldM (fun a '(e, scs) => handle scs e a) a events.
End Events.

(** internal/tui/app.go:67-72: the nodes *)
Definition make_nodes (n : network xnum) : gores (list tnode) :=
  mapM (fun v => new_node v (match nv_factor v with Some k => nth_error (n_factors n) k | None => None end)) (n_vars n).
(** internal/tui/app.go:79-83: the nodes show the policies *)
Definition show_policies (sc : sched) (nodes : list tnode) (policy : list (string * nfactor xnum)) : gores (list tnode) :=
  foldM (fun nodes '((name, f) : string * nfactor xnum) =>
    let idx := nodes_by_name nodes name in
    let! t := sget nodes idx in
    sset nodes idx (with_factor t f)) nodes (shuffle sc 0 policy).
(** internal/tui/app.go:67-134 Run after the network was read and trained, up to the first event. An
    error is returned to the caller. *)
Definition app_run (scs : nat -> sched) (scp : sched) (n : network xnum) (evidence : list (string * string)) : gores app :=
  let! nodes := make_nodes n in
  let '(n, r) := net_solve_policies scp n true in
  let! policy := r in
  let! nodes := show_policies (scs 3%nat) nodes policy in
  let a := mkApp n nodes evidence [] 0 0 false [] [] [] [] PGraph None true in
  let '(a, r) := update_marginals scs a in
  let! _ := r in
  let! a := create_canvas a in
  let! a := render false a in
  Ok (if String.eqb (n_info n) "" then a else set_page a PInfo).

(** cmd/bbn/inference.go:63-91 runInferenceCommand after the file was read *)
Definition run_inference (scs : nat -> sched) (scp : sched) (n : network xnum) (evidence : list string)
  : gores (list (string * string) * list (string * list xnum)) :=
  let! ev := parse_evidence evidence in
  let! nodes := make_nodes n in
  let '(n, r) := net_solve_policies scp n true in
  let! _ := r in
  let! res := snd (tui_solve scs n ev (map (fun t => (t_var t, t_factor t)) nodes) false) in
  Ok (ev, res).
