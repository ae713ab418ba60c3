(** Specification vocabulary for lines and colors on the screen of the terminal application. *)
From Coq Require Import ZArith List Bool String.
From Verif Require Import Num GoBase VarModel NetModel SpecNet CliModel TuiModel SpecApp.
Import ListNotations.
Open Scope string_scope.
Open Scope list_scope.
Open Scope Z_scope.

(** ** Lines *)

(** A row, a column and a character. *)
Notation mark := (Z * Z * Z)%type.
Definition next_to (p q : Z * Z) : Prop := Z.abs (fst p - fst q) + Z.abs (snd p - snd q) = 1.
(** From cell to cell, without gaps. *)
Fixpoint leads (p : Z * Z) (l : list mark) : Prop :=
  match l with [] => True | (y, x, _) :: rest => next_to p (y, x) /\ leads (y, x) rest end.
(** The sides of a cell to which its line goes: above, below, left, right. *)
Definition sides (c : Z) : list (Z * Z) :=
  match find (fun p => fst p =? c) (combine (runes_of "─│┌┐└┘") [[(0, -1); (0, 1)]; [(-1, 0); (1, 0)]; [(1, 0); (0, 1)]; [(1, 0); (0, -1)]; [(-1, 0); (0, 1)]; [(-1, 0); (0, -1)]]) with
  | Some (_, l) => l
  | None => []
  end.
(** The line in the cell [q] goes from its neighbour [p] to its neighbour [r]. *)
Definition connects (c : Z) (p q r : Z * Z) : Prop :=
  In (fst p - fst q, snd p - snd q) (sides c) /\ In (fst r - fst q, snd r - snd q) (sides c) /\ p <> r.
Definition cell_of (m : mark) : Z * Z := let '(y, x, _) := m in (y, x).
(** All cells of a line connect the cells before and after them, the last one is followed by [q]. *)
Fixpoint joins (p : Z * Z) (l : list mark) (q : Z * Z) : Prop :=
  match l with
  | [] => True
  | m :: rest => connects (snd m) p (cell_of m) (match rest with [] => q | m' :: _ => cell_of m' end) /\ joins (cell_of m) rest q
  end.
(** An arrow that points to the box. *)
Definition points_to (b : bounds) (m : mark) : Prop :=
  let '(y, x, c) := m in
  c = rune "v" /\ inside b x (y + 1) = true \/ c = rune "^" /\ inside b x (y - 1) = true \/
  c = rune ">" /\ inside b (x + 1) y = true \/ c = rune "<" /\ inside b (x - 1) y = true.
(** An arc from one box to another: nothing if they overlap, else a line that starts at the one and ends with an arrow at the other. *)
Definition arc_drawn (b1 b2 : bounds) (l : list mark) : Prop :=
  ((exists y x, inside b1 x y = true /\ inside b2 x y = true) /\ l = []) \/
  ((forall y x, inside b1 x y = true -> inside b2 x y = false) /\
   exists start line arrow, l = line ++ [arrow] /\ inside b1 (snd start) (fst start) = true /\ leads start l /\ joins start line (cell_of arrow) /\ points_to b2 arrow).
(** Characters drawn one after the other. *)
Definition drawn (l : list mark) (y x : Z) : Z := fold_left (fun c '((y', x', r) : mark) => if (y' =? y) && (x' =? x) then r else c) l 32.

(** The table of a node: the returned policy or its own table. *)
Definition table_of (n : network xnum) (tables : list (string * nfactor xnum)) (v : nvar) : option (nfactor xnum) :=
  match sget_map tables (nv_name v) with
  | Some f => Some f
  | None => match nv_factor v with Some k => nth_error (n_factors n) k | None => None end
  end.
Definition box_named (a : app) (x : string) : bounds :=
  match find (fun t => String.eqb (t_name t) x) (a_nodes a) with Some t => t_bounds t | None => mkBounds 0 0 0 0 end.
(** The boxes of a parent and a child, for all parents in the tables of all nodes. *)
Definition arcs (n : network xnum) (tables : list (string * nfactor xnum)) (a : app) : list (bounds * bounds) :=
  flat_map (fun v => match table_of n tables v with Some f => map (fun g => (box_named a g, box_named a (nv_name v))) (nf_given f) | None => [] end) (n_vars n).

(** ** Colors *)

(** The tag that starts a color; white is the default color of the terminal. *)
Definition tag_of (color : string) : string := if String.eqb color "white" then "[-]" else ("[" ++ color ++ "]")%string.
(** The color of a node: the given one, else white for chance nodes, green for utilities, blue for decisions. *)
Definition node_tag (v : nvar) : string :=
  tag_of (if String.eqb (nv_color v) "" then match nv_type v with Chance => "white" | Utility => "green" | Decision => "blue" end else nv_color v).
(** The color of a cell: that of the topmost node there. *)
Definition cell_tag (a : app) (y x : Z) : string :=
  match find (fun t => inside (t_bounds t) x y) (rev (a_nodes a)) with Some t => node_tag (t_var t) | None => "[-]" end.
(** The colors in which the characters of a text appear: a tag colors all that follows. *)
Fixpoint text_colors (color : string) (l : list token) : list (list string) :=
  match l with
  | [] => [[]]
  | TTag s :: rest => text_colors s rest
  | TRune _ :: rest => match text_colors color rest with line :: more => (color :: line) :: more | [] => [[color]] end
  | TNewline :: rest => [] :: text_colors color rest
  end.
(** The color in which the character at this place of the screen appears. *)
Definition color_at (a : app) (y x : Z) : option string :=
  match nth_error (text_colors "[-]" (a_text a)) (Z.to_nat y) with Some line => nth_error line (Z.to_nat x) | None => None end.
