(** Specification vocabulary for float64 results: the exact value of a float64, and closeness
    to an exact value. *)
From Coq Require Import ZArith List Bool String QArith Qcanon Qcabs.
From Coq Require Import Floats.SpecFloat.
From Verif Require Import Num GoBase VarModel SpecFactor VEModel SpecVE NetModel SpecNet.
Import ListNotations.
Open Scope string_scope.
Open Scope list_scope.
Open Scope Z_scope.

(** The number a float64 stands for: sign, mantissa and power of two. *)
Definition f64_exact (x : f64) : xnum :=
  match x with
  | S754_zero _ => Fin 0%Qc
  | S754_infinity false => PInf
  | S754_infinity true => NInf
  | S754_nan => NaN
  | S754_finite s m e =>
      let z := if s then Z.neg m else Z.pos m in
      Fin (Q2Qc (if 0 <=? e then inject_Z (z * 2 ^ e) else z # Z.to_pos (2 ^ (- e))))
  end.

(** [x] is a float64 that a computer can store: the mantissa has at most 53 bits and the
    exponent is in range. *)
Definition is_float64 (x : f64) : bool := valid_binary 53 1024 x.

(** [p] is a finite number, and differs from [q] by at most [q] times [k] times 2^-52. *)
Definition two_to_minus (k : nat) : Qc := (Q2Qc (1 # 2) ^ k)%Qc.
Definition two_to (k : nat) : Qc := (Q2Qc (2 # 1) ^ k)%Qc.
Definition error_of (k : nat) : Qc := (Q2Qc (inject_Z (Z.of_nat k)) * two_to_minus 52)%Qc.
Definition close_to (k : nat) (p : f64) (q : Qc) : Prop :=
  exists r, f64_exact p = Fin r /\ (q - q * error_of k <= r)%Qc /\ (r <= q + q * error_of k)%Qc.

(** The network with every float64 in its tables and policies read as an exact number. *)
Definition exact_factor (f : factor f64) : factor xnum := mkFactor (f_id f) (f_vars f) (map f64_exact (f_data f)).
Definition exact_table (f : nfactor f64) : nfactor xnum :=
  mkNFactor (nf_for f) (nf_given f) (option_map (map f64_exact) (nf_table f)) (nf_outcomes f) (nf_columns f).
Definition exact_net (n : network f64) : network xnum :=
  mkNet (n_name n) (n_info n) (n_vars n) (map exact_table (n_factors n))
    (map (fun dp => (fst dp, exact_factor (snd dp))) (n_policies n)) None [] (n_tui n).

(** All numbers in the network are proper float64 values. *)
Definition float_network (n : network f64) : Prop :=
  (forall f x, In f (n_factors n) -> In x (slice_of (nf_table f)) -> is_float64 x = true) /\
  (forall d p x, In (d, p) (n_policies n) -> In x (f_data p) -> is_float64 x = true).

(** No number is so small or so large that results could leave the range of float64. Entries
    of tables and sums of rows are zero or between 2^-1000 and 2^1000. Conditional
    probabilities of variable [x] are zero or at least 2^-(b x); so are entries of policies,
    which are at most one. There are at most 2^s joint states, and the sum of [s] and of all
    exponents [b x] is at most 1000. *)
Record in_float_range (n : network xnum) (b : string -> nat) (s : nat) : Prop := {
  fr_entries : forall f w, In f (chance_factors n) -> in_table (n_vars n) f w ->
    entry (n_vars n) f w = 0%Qc \/ (two_to_minus 1000 <= entry (n_vars n) f w)%Qc;
  fr_rows : forall f w, In f (chance_factors n) -> in_table (n_vars n) f w ->
    (row_sum (n_vars n) f w <= two_to 1000)%Qc;
  fr_tables : forall f w, In f (chance_factors n) -> in_table (n_vars n) f w ->
    cond_prob (n_vars n) f w = 0%Qc \/ (two_to_minus (b (nf_for f)) <= cond_prob (n_vars n) f w)%Qc;
  fr_policies : forall d p w, In (d, p) (n_policies n) -> proper_state n w ->
    policy_prob (n_vars n) p w = 0%Qc \/ (two_to_minus (b d) <= policy_prob (n_vars n) p w <= 1)%Qc;
  fr_states : fold_right (fun v z => zlen (nv_outcomes v) * z) 1
    (filter (fun v => negb (is_kind Utility v)) (n_vars n)) <= 2 ^ Z.of_nat s;
  fr_sum : (list_sum (map (fun f => b (nf_for f)) (chance_factors n)) +
    list_sum (map (fun dp => b (fst dp)) (n_policies n)) + s <= 1000)%nat
}.

(** A bound for the number of roundings that can add up in one entry of the result: for each
    table the sum over a row, the division and the product; for each policy the product; for
    each chance or decision variable the sum over its outcomes and the product. *)
Definition rounding_steps (n : network xnum) : nat :=
  (list_sum (map (fun f => num_outcomes (n_vars n) (nf_for f) + 2) (chance_factors n)) +
   List.length (n_policies n) +
   list_sum (map (fun v => S (List.length (nv_outcomes v))) (filter (fun v => negb (is_kind Utility v)) (n_vars n))))%nat.

(** [p] is the best float64 for [q]: a finite number, and no float64 is closer to [q]. *)
Definition nearest_float (p : f64) (q : Qc) : Prop :=
  is_float64 p = true /\ exists r, f64_exact p = Fin r /\
    forall y r', is_float64 y = true -> f64_exact y = Fin r' -> (Qcabs (r - q) <= Qcabs (r' - q))%Qc.
