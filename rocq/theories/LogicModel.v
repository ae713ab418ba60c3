(** Model of package logic (logic/*.go): logic operators that produce tables. *)
From Coq Require Import ZArith List Bool String.
From Verif Require Import Num GoBase VarModel.
Import ListNotations.
Open Scope string_scope.
Open Scope list_scope.
Open Scope Z_scope.

Section Logic.
Context {A : Type} {N : NumOps A}.

(** The constant 0.5 (logic/simple.go:244, 254, 265, 276) *)
Definition nhalf : A := ndiv n1 (nofint 2).

(** make([]float64, n): the Go runtime panics for negative lengths and for more than 2^48
    bytes (on 64-bit systems). Smaller tables are assumed to fit into memory. *)
Definition make_floats (n : Z) : gores (list A) :=
  if 2 ^ 45 <? n then Panic PMake else smake n n0.

(** uint(1) << uint(given): 0 when 64 or more, which includes converted negative numbers *)
Definition rows_of (given : Z) : Z := if (given <? 0) || (64 <=? given) then 0 else 2 ^ given.
(** arithmetic of type uint *)
Definition u64 (n : Z) : Z := n mod 2 ^ 64.

(** math/bits.OnesCount: the number of one bits *)
Fixpoint pos_ones (p : positive) : Z :=
  match p with xH => 1 | xO q => pos_ones q | xI q => 1 + pos_ones q end.
Definition ones_count (i : Z) : Z := match i with Zpos p => pos_ones p | _ => 0 end.

(** The types of logic factors and their fields. The rule of a countFactor (count.go:10-13)
    is one of three functions. *)
Inductive count_rule := RIs | RLess | RGreater.
Inductive lfactor :=
| LBool (l : list bool)                       (* simple.go:5 boolFactor *)
| LFloat (l : list A)                         (* simple.go:31 floatFactor *)
| LBits                                       (* bits.go:7 bitsFactor *)
| LCount (rule : count_rule) (value : Z)      (* count.go:8-11 countFactor *)
| LCountTrue                                  (* count.go:67 *)
| LCountFalse                                 (* count.go:94 *)
| LGiven (idx : Z)                            (* given.go:7-9 *)
| LGivenNot (idx : Z)                         (* given.go:42-44 *)
| LGivenExcl (idx : Z)                        (* given.go:77-79 *)
| LOutcomeIs (idx len : Z)                    (* outcome.go:7-10 *)
| LOutcomeIsNot (idx len : Z)                 (* outcome.go:45-48 *)
| LOutcomeEither (indices : list Z) (len : Z) (* outcome.go:83-86 *)
| LOutcomeLess (idx len : Z)                  (* outcome.go:123-126 *)
| LOutcomeGreater (idx len : Z).              (* outcome.go:163-166 *)

(** count.go:18-20, 28-30, 38-40 *)
Definition apply_rule (r : count_rule) (count value : Z) : bool :=
  match r with RIs => count =? value | RLess => count <? value | RGreater => value <? count end.

(** SetArgs of all types: simple.go:7-12, 33-38, bits.go:14-19, count.go:43-49, 74-79, 101-106,
    given.go:18-24, 53-59, 88-94, outcome.go:21-28, 59-66, 97-104, 138-145, 178-185. Returns the
    changed object. *)
Definition set_args (f : lfactor) (args : list Z) : gores lfactor :=
  match f, args with
  | LBool _, [] | LFloat _, [] | LBits, [] | LCountTrue, [] | LCountFalse, [] => Ok f
  | LCount r _, [v] => Ok (LCount r v)
  | LGiven _, [i] => Ok (LGiven i)
  | LGivenNot _, [i] => Ok (LGivenNot i)
  | LGivenExcl _, [i] => Ok (LGivenExcl i)
  | LOutcomeIs _ _, [i; n] => Ok (LOutcomeIs i n)
  | LOutcomeIsNot _ _, [i; n] => Ok (LOutcomeIsNot i n)
  | LOutcomeEither _ _, _ :: _ :: _ => Ok (LOutcomeEither (removelast args) (last args 0))
  | LOutcomeLess _ _, [i; n] => Ok (LOutcomeLess i n)
  | LOutcomeGreater _ _, [i; n] => Ok (LOutcomeGreater i n)
  | _, _ => Err (EMsg "logic operator expects another number of arguments")
  end.

(** "if cond { table[i*2] = 1 } else { table[i*2+1] = 1 }" *)
Definition set_row (table : list A) (i : Z) (b : bool) : gores (list A) :=
  sset table (if b then i * 2 else i * 2 + 1) n1.

(** i & (1 << idx) == 0 for i of type uint and idx of type int *)
Definition bit_clear (i idx : Z) : gores bool :=
  if idx <? 0 then Panic PShift else Ok (negb (Z.testbit i idx)).

(** simple.go:14-29 boolFactor.Table; 1<<given is of type int, a negative shift panics *)
Definition bool_table (arr : list bool) (given : Z) : gores (list A) :=
  if given <? 0 then Panic PShift
  else if negb (zlen arr =? wrap64 (rows_of given)) then Err (EMsg "logic operator requires another number of operands")
  else
    let! table := make_floats (zlen arr * 2) in
    foldM (fun table '((i, v) : Z * bool) => set_row table i v) table (combine (zrange 0 (zlen arr)) arr).

(** simple.go:40-46 floatFactor.Table *)
Definition float_table (arr : list A) (given : Z) : gores (list A) :=
  if given + 1 <? 0 then Panic PShift
  else if negb (zlen arr =? wrap64 (rows_of (given + 1))) then Err (EMsg "logic operator requires another number of operands")
  else Ok arr.

(** bits.go:21-34 bitsFactor.Table *)
Definition bits_table (given : Z) : gores (list A) :=
  let rows := rows_of given in
  let cols := rows_of given in
  let! table := make_floats (wrap64 (u64 (rows * cols))) in
  let max := u64 (cols - 1) in
  foldM (fun table i => sset table (i * cols + (max - i)) n1) table (zrange 0 rows).

(** count.go:51-65 countFactor.Table *)
Definition count_table (r : count_rule) (value given : Z) : gores (list A) :=
  let rows := rows_of given in
  let! table := make_floats (u64 (rows * 2)) in
  foldM (fun table i => set_row table i (apply_rule r (given - ones_count i) value)) table (zrange 0 rows).

(** count.go:81-92 countTrueFactor.Table *)
Definition count_true_table (given : Z) : gores (list A) :=
  let rows := rows_of given in
  let cols := given + 1 in
  let! table := make_floats (wrap64 (wrap64 rows * cols)) in
  foldM (fun table i => sset table (i * cols + (given - ones_count i)) n1) table (zrange 0 rows).

(** count.go:108-119 countFalseFactor.Table *)
Definition count_false_table (given : Z) : gores (list A) :=
  let rows := rows_of given in
  let cols := given + 1 in
  let! table := make_floats (wrap64 (wrap64 rows * cols)) in
  foldM (fun table i => sset table (i * cols + ones_count i) n1) table (zrange 0 rows).

(** given.go:26-40 givenFactor.Table *)
Definition given_table (idx given : Z) : gores (list A) :=
  let rows := rows_of given in
  let! table := make_floats (u64 (rows * 2)) in
  foldM (fun table i => let! isTrue := bit_clear i idx in set_row table i isTrue) table (zrange 0 rows).

(** given.go:61-75 givenNotFactor.Table *)
Definition given_not_table (idx given : Z) : gores (list A) :=
  let rows := rows_of given in
  let! table := make_floats (u64 (rows * 2)) in
  foldM (fun table i => let! isTrue := bit_clear i idx in set_row table i (negb isTrue)) table (zrange 0 rows).

(** given.go:96-125 givenExclFactor.Table; lines 108-117 search another true parent (1 << j for
    j up to 63) *)
Definition given_excl_table (idx given : Z) : gores (list A) :=
  let rows := rows_of given in
  let! table := make_floats (u64 (rows * 2)) in
  foldM (fun table i =>
    let! isTrue := bit_clear i idx in
    if negb isTrue then set_row table i false
    else
      let otherTrue := existsb (fun j => negb (j =? idx) && negb (Z.testbit i j)) (zrange 0 given) in
      set_row table i (negb otherTrue)) table (zrange 0 rows).

(** "for i := lo; i < hi; i++ { table[i*2+off] = 1 }" *)
Definition fill_column (off : Z) (table : list A) (lo hi : Z) : gores (list A) :=
  foldM (fun table i => sset table (i * 2 + off) n1) table (zrange lo hi).

(** The check at the start of the outcome factors' Table and the table of zeros *)
Definition outcome_start (len given : Z) : gores (list A) :=
  if negb (given =? 1) then Err (EMsg "logic operator requires 1 operand")
  else make_floats (wrap64 (len * 2)).

(** outcome.go:30-43 outcomeIsFactor.Table *)
Definition outcome_is_table (idx len given : Z) : gores (list A) :=
  let! table := outcome_start len given in
  let! table := fill_column 1 table 0 len in
  let! table := sset table (wrap64 (idx * 2)) n1 in
  sset table (wrap64 (idx * 2 + 1)) n0.

(** outcome.go:68-81 outcomeIsNotFactor.Table *)
Definition outcome_is_not_table (idx len given : Z) : gores (list A) :=
  let! table := outcome_start len given in
  let! table := fill_column 0 table 0 len in
  let! table := sset table (wrap64 (idx * 2)) n0 in
  sset table (wrap64 (idx * 2 + 1)) n1.

(** outcome.go:106-121 outcomeEitherFactor.Table *)
Definition outcome_either_table (indices : list Z) (len given : Z) : gores (list A) :=
  let! table := outcome_start len given in
  let! table := fill_column 1 table 0 len in
  foldM (fun table idx =>
    let! table := sset table (wrap64 (idx * 2)) n1 in
    sset table (wrap64 (idx * 2 + 1)) n0) table indices.

(** outcome.go:147-161 outcomeLessFactor.Table *)
Definition outcome_less_table (idx len given : Z) : gores (list A) :=
  let! table := outcome_start len given in
  let! table := fill_column 0 table 0 idx in
  fill_column 1 table idx len.

(** outcome.go:187-201 outcomeGreaterFactor.Table *)
Definition outcome_greater_table (idx len given : Z) : gores (list A) :=
  let! table := outcome_start len given in
  let! table := fill_column 1 table 0 idx in
  fill_column 0 table idx len.

(** Factor.Table (factor.go:6) *)
Definition table (f : lfactor) (given : Z) : gores (list A) :=
  match f with
  | LBool l => bool_table l given
  | LFloat l => float_table l given
  | LBits => bits_table given
  | LCount r v => count_table r v given
  | LCountTrue => count_true_table given
  | LCountFalse => count_false_table given
  | LGiven i => given_table i given
  | LGivenNot i => given_not_table i given
  | LGivenExcl i => given_excl_table i given
  | LOutcomeIs i n => outcome_is_table i n given
  | LOutcomeIsNot i n => outcome_is_not_table i n given
  | LOutcomeEither l n => outcome_either_table l n given
  | LOutcomeLess i n => outcome_less_table i n given
  | LOutcomeGreater i n => outcome_greater_table i n given
  end.

(** factor.go:19-67 factors: the shared objects behind the names. The contents of the
    boolFactors and floatFactors are those of simple.go:48-302. *)
Definition factors : list (string * lfactor) := [
  ("not", LBool [false; true]);
  ("and", LBool [true; false; false; false]);
  ("not-and", LBool [false; false; true; false]);
  ("and-not", LBool [false; true; false; false]);
  ("not-and-not", LBool [false; false; false; true]);
  ("or", LBool [true; true; true; false]);
  ("not-or", LBool [true; false; true; true]);
  ("or-not", LBool [true; true; false; true]);
  ("not-or-not", LBool [false; true; true; true]);
  ("xor", LBool [false; true; true; false]);
  ("cond", LBool [true; false; true; true]);
  ("not-cond", LBool [true; true; true; false]);
  ("cond-not", LBool [false; true; true; true]);
  ("not-cond-not", LBool [true; true; false; true]);
  ("bicond", LBool [true; false; false; true]);
  ("if-then", LFloat [n1; n0; nhalf; nhalf]);
  ("if-not-then", LFloat [nhalf; nhalf; n1; n0]);
  ("if-then-not", LFloat [n0; n1; nhalf; nhalf]);
  ("if-not-then-not", LFloat [nhalf; nhalf; n0; n1]);
  ("equals", LBool [true; false]);
  ("equals-not", LBool [false; true]);
  ("count-true", LCountTrue);
  ("count-false", LCountFalse);
  ("count-is", LCount RIs 0);
  ("count-less", LCount RLess 0);
  ("count-greater", LCount RGreater 0);
  ("given", LGiven 0);
  ("given-not", LGivenNot 0);
  ("given-excl", LGivenExcl 0);
  ("outcome-is", LOutcomeIs 0 0);
  ("outcome-is-not", LOutcomeIsNot 0 0);
  ("outcome-either", LOutcomeEither [] 0);
  ("outcome-less", LOutcomeLess 0 0);
  ("outcome-greater", LOutcomeGreater 0 0);
  ("bits", LBits)
].

(** factor.go:14-17 Get: the object in a given state of the registry *)
Definition logic_get (reg : list (string * lfactor)) (name : string) : option lfactor := mget String.eqb reg name.

(** The operators are shared mutable objects: a call of SetArgs (on the object returned by Get)
    is visible in every later use of the same name. An unknown name changes nothing. *)
Definition reg_set_args (reg : list (string * lfactor)) (name : string) (args : list Z) : gores lfactor * list (string * lfactor) :=
  match logic_get reg name with
  | None => (Err (EMsg "unknown logic operator"), reg)
  | Some l => match set_args l args with
              | Ok l' => (Ok l', mset String.eqb reg name l')
              | Err e => (Err e, reg)
              | Panic p => (Panic p, reg)
              end
  end.
Definition reg_table (reg : list (string * lfactor)) (name : string) (given : Z) : gores (list A) :=
  match logic_get reg name with
  | None => Err (EMsg "unknown logic operator")
  | Some l => table l given
  end.
(** What a parser does with the operator of one node (yml.go:109-131): Get, SetArgs, Table *)
Definition use_operator (reg : list (string * lfactor)) (name : string) (args : list Z) (given : Z) : gores (list A) * list (string * lfactor) :=
  let '(r, reg') := reg_set_args reg name args in
  (let! _ := r in reg_table reg' name given, reg').

(** Calls of SetArgs and Table on shared operators, in the order in which they take place. *)
Inductive lcall := CallSetArgs (name : string) (args : list Z) | CallTable (name : string) (given : Z).
Fixpoint run_calls (reg : list (string * lfactor)) (calls : list lcall) : list (gores (list A)) * list (string * lfactor) :=
  match calls with
  | [] => ([], reg)
  | CallSetArgs name args :: rest => run_calls (snd (reg_set_args reg name args)) rest
  | CallTable name given :: rest => let '(tables, reg') := run_calls reg rest in (reg_table reg name given :: tables, reg')
  end.

End Logic.
Arguments lfactor A : clear implicits.
