(** Model of the functions of Go's packages strings and strconv that the parsers use. Strings
    are sequences of bytes. *)
From Coq Require Import ZArith List Bool String Ascii.
From Verif Require Import GoBase.
Import ListNotations.
Open Scope string_scope.
Open Scope list_scope.
Open Scope Z_scope.

(** Cuts a string at the characters in [p]; there is always at least one part. *)
Fixpoint split_by (p : ascii -> bool) (s : string) : list string :=
  match s with
  | EmptyString => [""]
  | String c r => if p c then "" :: split_by p r
                  else match split_by p r with
                       | w :: ws => String c w :: ws
                       | [] => [String c ""]
                       end
  end.
(** strings.Split(s, sep) with a separator of one byte *)
Definition split (sep : ascii) (s : string) : list string := split_by (Ascii.eqb sep) s.
(** unicode.IsSpace for ASCII characters; other spaces (e.g. U+00A0) are not modelled. *)
Definition is_space (c : ascii) : bool :=
  let n := nat_of_ascii c in ((9 <=? n) && (n <=? 13) || (n =? 32))%nat.
(** strings.Fields *)
Definition fields (s : string) : list string := filter (fun w => negb (String.eqb w "")) (split_by is_space s).

Fixpoint trim_left (p : ascii -> bool) (l : list ascii) : list ascii :=
  match l with
  | [] => []
  | c :: r => if p c then trim_left p r else l
  end.
(** strings.TrimFunc *)
Definition trim (p : ascii -> bool) (s : string) : string :=
  string_of_list_ascii (rev (trim_left p (rev (trim_left p (list_ascii_of_string s))))).
(** strings.TrimSpace *)
Definition trim_space (s : string) : string := trim is_space s.
(** strings.Trim(s, "()") *)
Definition is_paren (c : ascii) : bool := Ascii.eqb c "(" || Ascii.eqb c ")".
Definition trim_parens (s : string) : string := trim is_paren s.

(** strings.ToLower. Apart from A to Z, only two characters have an ASCII letter as lower case:
    U+0130 (bytes C4 B0) and U+212A (bytes E2 84 AA). Other characters are left as they are;
    this makes no difference when comparing the result with ASCII strings. *)
Definition lower_char (c : ascii) : ascii :=
  let n := nat_of_ascii c in if ((65 <=? n) && (n <=? 90))%nat then ascii_of_nat (n + 32) else c.
Fixpoint to_lower (s : string) : string :=
  match s with
  | EmptyString => EmptyString
  | String c1 (String c2 r as t) =>
    if Ascii.eqb c1 "196" && Ascii.eqb c2 "176" then String "i" (to_lower r)
    else match r with
         | String c3 r' =>
           if Ascii.eqb c1 "226" && Ascii.eqb c2 "132" && Ascii.eqb c3 "170" then String "k" (to_lower r')
           else String (lower_char c1) (to_lower t)
         | EmptyString => String (lower_char c1) (to_lower t)
         end
  | String c r => String (lower_char c) (to_lower r)
  end.

(** strconv.Atoi: an optional sign and at least one digit; the value must fit into 64 bits. *)
Definition digit_of (c : ascii) : option Z :=
  let n := nat_of_ascii c in if ((48 <=? n) && (n <=? 57))%nat then Some (Z.of_nat n - 48) else None.
Fixpoint digits (s : string) (acc : Z) : option Z :=
  match s with
  | EmptyString => Some acc
  | String c r => match digit_of c with Some d => digits r (acc * 10 + d) | None => None end
  end.
Definition in_int64 (z : Z) : bool := (- 2 ^ 63 <=? z) && (z <? 2 ^ 63).
Definition atoi (s : string) : gores Z :=
  let '(neg, body) := match s with
                      | String c r => if Ascii.eqb c "-" then (true, r) else if Ascii.eqb c "+" then (false, r) else (false, s)
                      | EmptyString => (false, s)
                      end in
  match body with
  | EmptyString => Err (EMsg "invalid syntax")
  | _ => match digits body 0 with
         | None => Err (EMsg "invalid syntax")
         | Some z => let z := if neg then - z else z in
                     if in_int64 z then Ok z else Err (EMsg "value out of range")
         end
  end.
