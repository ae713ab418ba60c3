(** Specification vocabulary for the commands bbn and bbni. *)
From Coq Require Import ZArith List Bool String Ascii QArith Qcanon Qabs.
From Verif Require Import Num GoBase VarModel NetModel SpecNet SpecDoc SpecTui TuiModel SpecApp.
Import ListNotations.
Open Scope string_scope.
Open Scope list_scope.
Open Scope Z_scope.

(** ** File names *)
(** The extension of the last element of a path: what comes after the last dot. *)
Definition has_extension (path e : string) : Prop :=
  exists stem, path = (stem ++ "." ++ e)%string /\ ~ In "."%char (chars e) /\ ~ In "/"%char (chars e).
(** The word [w] of small letters, with any letters as capitals. *)
Definition any_case (w s : string) : Prop :=
  Forall2 (fun a c => c = a \/ exists i, (i < 26)%nat /\ a = ascii_of_nat (97 + i) /\ c = ascii_of_nat (65 + i)) (chars w) (chars s).
Definition ascii_only (s : string) : Prop := forall c, In c (chars s) -> (nat_of_ascii c < 128)%nat.
(** A single character that is not ASCII may have several bytes. *)
Definition single_rune (s : string) (r : Z) : Prop := runes_of s = [r].

(** ** Output *)
(** A text in a column of width [w]: preceded by spaces, unless it is too long. *)
Definition in_column (w : Z) (content t : list Z) : Prop :=
  exists k, t = repeat 32 k ++ content /\ zlen t = Z.max w (zlen content).
(** A number in a column of width [w], with three digits after the point. *)
Definition number_in_column (w : Z) (x : xnum) (t : list Z) : Prop :=
  match x with
  | Fin q => exists content r, in_column w content t /\ reads content r /\ (Qabs (r - this q) <= 1 # 2000)%Q /\ hd 0 content <> 32
  | PInf => in_column w (runes_of "+Inf") t
  | NInf => in_column w (runes_of "-Inf") t
  | NaN => in_column w (runes_of "NaN") t
  end.
(** Utilities are printed as they are, probabilities in percent. *)
Definition prints_number (v : nvar) (x : xnum) (t : list Z) : Prop :=
  match nv_type v with
  | Utility => number_in_column 10 x t
  | _ => exists t', t = t' ++ runes_of "%" /\ number_in_column 9 (match x with Fin q => Fin (q * Q2Qc 100)%Qc | _ => x end) t'
  end.
(** The two lines for a node: the outcomes, then the name and the numbers. Columns are separated by a space. *)
Definition columns (l : list (list Z)) : list Z := flat_map (fun t => 32 :: t) l.
Definition prints_node (n : network xnum) (ev : list (string * string)) (v : nvar) (lines : list (list Z)) : Prop :=
  exists outcomes name numbers,
    Forall2 (fun o t => in_column 10 (runes_of o) t) (nv_outcomes v) outcomes /\
    in_column 30 (runes_of (nv_name v)) name /\
    Forall2 (prints_number v) (shown_numbers n false ev v) numbers /\
    lines = [repeat 32 30 ++ columns outcomes;
             name ++ columns numbers ++ match sget_map ev (nv_name v) with Some _ => runes_of "  +" | None => [] end].
