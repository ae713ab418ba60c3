(** The characters of a text stored as bytes: UTF-8 (RFC 3629), independent of the decoder of the model. *)
From Coq Require Import ZArith List.
From Coq Require String Ascii.
Import ListNotations.
Open Scope Z_scope.

(** The numbers that are characters: all code points except the surrogates. *)
Definition character (c : Z) : Prop := 0 <= c <= 1114111 /\ ~ (55296 <= c <= 57343).

Definition byte (b : Z) : Prop := 0 <= b <= 255.

(** The bytes of a character: up to 7, 11, 16 and 21 bits in one, two, three and four bytes. *)
Definition encode (c : Z) : list Z :=
  if c <? 128 then [c]
  else if c <? 2048 then [192 + c / 64; 128 + c mod 64]
  else if c <? 65536 then [224 + c / 4096; 128 + c / 64 mod 64; 128 + c mod 64]
  else [240 + c / 262144; 128 + c / 4096 mod 64; 128 + c / 64 mod 64; 128 + c mod 64].

(** The text read from some bytes: whole characters, and U+FFFD for each byte at which no character starts. *)
Inductive text_of : list Z -> list Z -> Prop :=
| text_end : text_of [] []
| text_char c bytes cs : character c -> text_of bytes cs -> text_of (encode c ++ bytes) (c :: cs)
| text_bad b bytes cs : (forall c rest, character c -> b :: bytes <> encode c ++ rest) -> text_of bytes cs ->
    text_of (b :: bytes) (65533 :: cs).

(** The bytes of a Go string. *)
Definition bytes_of (s : String.string) : list Z :=
  map (fun c => Z.of_nat (Ascii.nat_of_ascii c)) (String.list_ascii_of_string s).

(** The string [s] is a text with the characters [cs]. *)
Definition spells (s : String.string) (cs : list Z) : Prop := text_of (bytes_of s) cs.
