(** Specification of the text of CSV files (RFC 4180): which bytes are a table of texts. Independent of the reader in CsvModel.v. *)
From Coq Require Import ZArith List String.
From Verif Require Import SpecUtf8.
Import ListNotations.
Open Scope Z_scope.

(** The bytes for the double quote and for line ends. *)
Definition quote_byte : Z := 34.
Definition line_end (e : list Z) : Prop := e = [10] \/ e = [13; 10].

(** A character that can separate fields. *)
Definition separator (r : Z) : Prop := character r /\ ~ In r [0; 10; 13; 34; 65533].

(** The bytes [x] occur in the bytes [l]. *)
Definition occurs (x l : list Z) : Prop := exists a b, l = a ++ x ++ b.

(** Quotes in quotes are written twice. *)
Definition doubled (l : list Z) : list Z := flat_map (fun c => if c =? quote_byte then [quote_byte; quote_byte] else [c]) l.

(** The text [t] is a way to write the field [f]: as it is, if there are no quotes, separators and
    line ends in it, or in quotes. *)
Inductive field_text (r : Z) (f : string) : list Z -> Prop :=
| as_is : ~ In 34 (bytes_of f) -> ~ In 10 (bytes_of f) -> ~ In 13 (bytes_of f) -> ~ occurs (encode r) (bytes_of f) -> field_text r f (bytes_of f)
| in_quotes : ~ occurs [13; 10] (bytes_of f) -> field_text r f ([quote_byte] ++ doubled (bytes_of f) ++ [quote_byte]).

(** A record is a line of fields with separators between them. *)
Inductive record_text (r : Z) : list string -> list Z -> Prop :=
| one_field f t : field_text r f t -> record_text r [f] t
| more_fields f t fs ts : field_text r f t -> record_text r fs ts -> record_text r (f :: fs) (t ++ encode r ++ ts).

(** A file is a list of records and blank lines. The end of the last line can be left out, or be CR alone. *)
Inductive file_text (r : Z) : list (list string) -> list Z -> Prop :=
| no_lines : file_text r [] []
| blank_line e rs t : line_end e -> file_text r rs t -> file_text r rs (e ++ t)
| last_record fs t : record_text r fs t -> t <> [] -> file_text r [fs] t
| next_record fs t e rs t' : record_text r fs t -> t <> [] -> line_end e -> file_text r rs t' -> file_text r (fs :: rs) (t ++ e ++ t')
| final_cr : file_text r [] [13]
| last_record_cr fs t : record_text r fs t -> t <> [] -> file_text r [fs] (t ++ [13]).
