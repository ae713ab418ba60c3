(** The text of CSV files (encoding/csv as used in internal/tui/training.go:22-27 and 43). The code of the
    standard library's reader is not in /repo; the model follows its documented behaviour and its
    implementation (readLine, readRecord) with the options set there: Comma is the delimiter,
    LazyQuotes, TrimLeadingSpace and Comment are off. *)
From Coq Require Import ZArith List Bool String Ascii.
From Verif Require Import Num GoBase.
Import ListNotations.
Open Scope string_scope.
Open Scope list_scope.
Open Scope Z_scope.

Definition lf : Z := 10.
Definition cr : Z := 13.
Definition quote : Z := 34.

(** internal/tui/training.go:25, the delimiter as bytes (utf8.EncodeRune, used by bytes.IndexRune). *)
Definition rune_bytes (r : Z) : list Z :=
  if r <? 128 then [r]
  else if r <? 2048 then [192 + r / 64; 128 + r mod 64]
  else if r <? 65536 then [224 + r / 4096; 128 + r / 64 mod 64; 128 + r mod 64]
  else [240 + r / 262144; 128 + r / 4096 mod 64; 128 + r / 64 mod 64; 128 + r mod 64].

(** internal/tui/training.go:25 with csv.validDelim: the delimiters that the reader accepts *)
Definition valid_delim (r : Z) : bool :=
  negb (r =? 0) && negb (r =? quote) && negb (r =? cr) && negb (r =? lf) &&
  ((0 <=? r) && (r <? 55296) || (57343 <? r) && (r <=? 1114111)) && negb (r =? 65533).

(** internal/tui/training.go:27,43 with csv.Reader.readLine: the bytes up to the next line end or the end of the file, and the rest *)
Fixpoint cut_line (l : list Z) : list Z * list Z :=
  match l with
  | [] => ([], [])
  | c :: l' => if c =? lf then ([lf], l') else let '(a, b) := cut_line l' in (c :: a, b)
  end.

(** csv.Reader.readLine (internal/tui/training.go:27,43): CR LF at the end becomes LF. A CR before the end of the file is dropped. *)
Fixpoint normal (l : list Z) : list Z :=
  match l with
  | [] => []
  | c :: l' => if (c =? cr) && match l' with [] => true | [x] => x =? lf | _ => false end then l' else c :: normal l'
  end.

(** csv.Reader.readLine (internal/tui/training.go:27,43). At the end of the file the line is empty and so is the rest. *)
Definition read_line (l : list Z) : list Z * list Z := let '(a, b) := cut_line l in (normal a, b).

(** bytes.IndexRune (internal/tui/training.go:27,43): the position of the first occurrence *)
Fixpoint starts_with (d l : list Z) : bool :=
  match d, l with
  | [], _ => true
  | a :: d', b :: l' => (a =? b) && starts_with d' l'
  | _, [] => false
  end.
Fixpoint index_of (d l : list Z) : option nat :=
  if starts_with d l then Some O else match l with [] => None | _ :: l' => option_map S (index_of d l') end.

(** csv.lengthNL (internal/tui/training.go:27,43): a line without its LF *)
Definition drop_lf (l : list Z) : list Z := match rev l with c :: r => if c =? lf then rev r else l | [] => l end.
Definition is_blank (l : list Z) : bool := match l with [] => true | [c] => c =? lf | _ => false end.

(** csv.Reader.readRecord (internal/tui/training.go:27,43), the loop over fields, which starts in [line] with [rest] not yet read.
    [inside] is the text so far of a field in quotes. The fuel is the number of bytes, and each
    step but the last uses one. *)
Fixpoint parse (fuel : nat) (d : list Z) (inside : option (list Z)) (line rest : list Z) (fields : list (list Z)) : gores (list (list Z) * list Z) :=
  match fuel with
  | O => Err (EMsg "out of fuel")
  | S k =>
    match inside with
    | None =>
      if starts_with [quote] line then parse k d (Some []) (skipn 1 line) rest fields
      else match index_of d line with
           | Some i =>
             let field := firstn i line in
             if existsb (Z.eqb quote) field then Err (EMsg "bare quote")
             else parse k d None (skipn (i + List.length d) line) rest (fields ++ [field])
           | None =>
             let field := drop_lf line in
             if existsb (Z.eqb quote) field then Err (EMsg "bare quote") else Ok (fields ++ [field], rest)
           end
    | Some buf =>
      match index_of [quote] line with
      | Some i =>
        let buf := buf ++ firstn i line in
        let line := skipn (S i) line in
        if starts_with [quote] line then parse k d (Some (buf ++ [quote])) (skipn 1 line) rest fields
        else if starts_with d line then parse k d None (skipn (List.length d) line) rest (fields ++ [buf])
        else if is_blank line then Ok (fields ++ [buf], rest)
        else Err (EMsg "extraneous quote")
      | None =>
        match line with
        | [] => Err (EMsg "quote not closed")
        | _ => let '(next, rest) := read_line rest in parse k d (Some (buf ++ line)) next rest fields
        end
      end
    end
  end.

(** All records of a file (internal/tui/training.go:27,42-49 with csv.Reader.Read): blank lines are skipped. The
    check of the number of fields is in train_record (CliModel.v). *)
Fixpoint records (fuel : nat) (d l : list Z) : gores (list (list (list Z))) :=
  match fuel with
  | O => Err (EMsg "out of fuel")
  | S k =>
    match l with
    | [] => Ok []
    | _ =>
      let '(line, rest) := read_line l in
      if is_blank line then records k d rest
      else let! (fields, rest) := parse (S (List.length l)) d None line rest [] in
           let! others := records k d rest in Ok (fields :: others)
    end
  end.

Definition byte_string (l : list Z) : string := string_of_list_ascii (map (fun b => ascii_of_nat (Z.to_nat b)) l).

(** internal/tui/training.go:22-49: the fields of all records. The file is read at once here, so an error in
    its syntax comes before errors in earlier records. *)
Definition csv_read (r : Z) (text : list Z) : gores (list (list string)) :=
  if valid_delim r then let! l := records (S (List.length text)) (rune_bytes r) text in Ok (map (map byte_string) l)
  else Err (EMsg "invalid delimiter").

(** internal/tui/training.go:17-27: opening and reading the file; the function [csv_of] of ShellModel.v. [files] gives the contents. *)
Definition csv_file (files : string -> option (list Z)) (file : string) (r : Z) : option (list (list string)) :=
  match files file with
  | None => None
  | Some text => match csv_read r text with Ok l => Some l | _ => None end
  end.
