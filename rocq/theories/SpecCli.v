(** Specification vocabulary for boxes, command line evidence and CSV training data. *)
From Coq Require Import ZArith List Bool String Ascii.
From Verif Require Import Num GoBase VarModel NetModel SpecNet SpecTrain CliModel.
Import ListNotations.
Open Scope string_scope.
Open Scope list_scope.
Open Scope Z_scope.

(** ** Boxes *)

(** All cells of [c] are cells of [b]. *)
Definition covers (b c : bounds) : Prop := forall x y, b_contains c x y = true -> b_contains b x y = true.
(** The same for the borders, which also locates boxes without cells. *)
Definition spans (b c : bounds) : Prop :=
  b_x b <= b_x c /\ b_x c + b_w c <= b_x b + b_w b /\ b_y b <= b_y c /\ b_y c + b_h c <= b_y b + b_h b.
Definition has_cells (b : bounds) : Prop := 0 < b_w b /\ 0 < b_h b.

(** ** Evidence *)

Definition equals_signs (s : string) : nat := count_occ ascii_dec (list_ascii_of_string s) "="%char.
(** [s] is "key=value" *)
Definition assigns (s key value : string) : Prop :=
  s = (key ++ "=" ++ value)%string /\ equals_signs key = 0%nat /\ equals_signs value = 0%nat.

(** ** CSV files *)

(** The field of a record in the first column with a name. *)
Fixpoint field (header record : list string) (x : string) : option string :=
  match header, record with
  | h :: hs, r :: rs => if String.eqb h x then Some r else field hs rs x
  | _, _ => None
  end.

(** A field that can be read as outcome number [k] of a node; -1 for the no-data marker. *)
Definition reads_as (outcomes : list string) (noData s : string) (k : Z) : Prop :=
  (s = noData /\ k = -1) \/
  (s <> noData /\ exists i, k = Z.of_nat i /\ nth_error outcomes i = Some s /\ forall j, (i < j)%nat -> nth_error outcomes j <> Some s).

(** The file can be read: there is a column for each variable, the marker is not the name of an
    outcome, all records have a field for each column, and these fields can be read. *)
Record readable {A} (parse_float : string -> option A) (vars : list nvar) (noData : string) (header : list string) (records : list (list string)) : Prop := {
  rd_columns : forall v, In v vars -> In (nv_name v) header;
  rd_marker : forall v, In v vars -> ~ In noData (nv_outcomes v);
  rd_length : forall r, In r records -> List.length r = List.length header;
  rd_outcomes : forall r v s, In r records -> In v vars -> nv_type v <> Utility -> field header r (nv_name v) = Some s ->
    s = noData \/ In s (nv_outcomes v);
  rd_utilities : forall r v s, In r records -> In v vars -> nv_type v = Utility -> field header r (nv_name v) = Some s -> parse_float s <> None
}.
(** Something in the file is wrong. *)
Inductive unreadable {A} (parse_float : string -> option A) (vars : list nvar) (noData : string) (header : list string) (records : list (list string)) : Prop :=
| no_column v : In v vars -> ~ In (nv_name v) header -> unreadable parse_float vars noData header records
| marker_is_outcome v : In v vars -> In noData (nv_outcomes v) -> unreadable parse_float vars noData header records
| bad_length r : In r records -> List.length r <> List.length header -> unreadable parse_float vars noData header records
| unknown_outcome r v s : In r records -> In v vars -> nv_type v <> Utility -> field header r (nv_name v) = Some s ->
    s <> noData -> ~ In s (nv_outcomes v) -> unreadable parse_float vars noData header records
| bad_utility r v s : In r records -> In v vars -> nv_type v = Utility -> field header r (nv_name v) = Some s ->
    parse_float s = None -> unreadable parse_float vars noData header records.

(** The sample has what a record says: outcome numbers for chance and decision nodes, -1 for the
    marker, and the numbers in the columns of utility nodes. *)
Record sample_of {A} {N : NumOps A} (parse_float : string -> option A) (vars : list nvar) (noData : string) (header record : list string) (smp : sample A) : Prop := {
  so_valid : valid_sample vars smp;
  so_outcomes : forall v s, In v vars -> nv_type v <> Utility -> field header record (nv_name v) = Some s ->
    reads_as (nv_outcomes v) noData s (observed vars smp (nv_name v));
  so_utilities : forall v s, In v vars -> nv_type v = Utility -> field header record (nv_name v) = Some s ->
    parse_float s = Some (reported vars smp (nv_name v))
}.

(** Two files with the same fields in the columns of the variables, which may be in another order or
    among others. *)
Definition same_data (vars : list nvar) (header1 : list string) (records1 : list (list string)) (header2 : list string) (records2 : list (list string)) : Prop :=
  (forall v, In v vars -> (In (nv_name v) header1 <-> In (nv_name v) header2)) /\
  Forall2 (fun r1 r2 => List.length r1 = List.length header1 /\ List.length r2 = List.length header2 /\
    forall v, In v vars -> field header1 r1 (nv_name v) = field header2 r2 (nv_name v)) records1 records2.

(** The records with the outcomes of state [s] for the named variables. *)
Definition record_shows (vars : list nvar) (header : list string) (names : list string) (s : nstate) (record : list string) : bool :=
  forallb (fun x => match field header record x, var_named vars x with
    | Some o, Some v => match nth_error (nv_outcomes v) (s x) with Some o' => String.eqb o o' | None => false end
    | _, _ => false
    end) names.
(** ... and with a known outcome of [x]. *)
Definition record_knows (noData : string) (header : list string) (x : string) (record : list string) : bool :=
  match field header record x with Some o => negb (String.eqb o noData) | None => false end.

(** ** Missing utilities *)

(** As [readable], but a utility may also be missing. *)
Record readable_missing {A} (parse_float : string -> option A) (vars : list nvar) (noData : string) (header : list string) (records : list (list string)) : Prop := {
  rm_columns : forall v, In v vars -> In (nv_name v) header;
  rm_marker : forall v, In v vars -> ~ In noData (nv_outcomes v);
  rm_length : forall r, In r records -> List.length r = List.length header;
  rm_outcomes : forall r v s, In r records -> In v vars -> nv_type v <> Utility -> field header r (nv_name v) = Some s ->
    s = noData \/ In s (nv_outcomes v);
  rm_utilities : forall r v s, In r records -> In v vars -> nv_type v = Utility -> field header r (nv_name v) = Some s ->
    s = noData \/ parse_float s <> None
}.
