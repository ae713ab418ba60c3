(** Numbers.

    The Go code computes with float64.  The model is polymorphic in the number
    operations it uses, collected in [NumOps].  Two instances are given:
    [xnum_ops], exact rationals with IEEE special values, and [ieee_ops],
    bit-exact IEEE-754 binary64 taken from the standard library's executable
    specification (Coq.Floats.SpecFloat). *)
From Coq Require Import ZArith QArith Qcanon List Bool.
From Coq Require Import Floats.SpecFloat.
Import ListNotations.
Open Scope Z_scope.

(** The float64 operations used in /repo: literals 0.0 and 1.0, +, *, /, <, ==,
    math.Inf(-1) (ve/variables.go:192), math.NaN() (training.go), float64(int),
    and the literal 0.5 (logic/simple.go). *)
Class NumOps (A : Type) := {
  n0 : A;
  n1 : A;
  nadd : A -> A -> A;
  nmul : A -> A -> A;
  ndiv : A -> A -> A;
  nlt : A -> A -> bool;
  neqb : A -> A -> bool;
  nninf : A;
  nnan : A;
  nisnan : A -> bool;
  nofint : Z -> A
}.

(** ** Exact extended rationals *)

(** A float64 without rounding, overflow and signed zeros (simplification):
    finite values are exact rationals; infinities and NaN follow IEEE-754. *)
Inductive xnum := Fin (q : Qc) | PInf | NInf | NaN.

Definition qc (q : Q) : Qc := Q2Qc q.

Definition qlt (x y : Qc) : bool := negb (Qle_bool (this y) (this x)).
Definition qeq (x y : Qc) : bool := Qeq_bool (this x) (this y).

Definition xneg (x : xnum) : xnum :=
  match x with Fin q => Fin (- q)%Qc | PInf => NInf | NInf => PInf | NaN => NaN end.

Definition xadd (x y : xnum) : xnum :=
  match x, y with
  | Fin p, Fin q => Fin (p + q)%Qc
  | NaN, _ | _, NaN => NaN
  | PInf, NInf | NInf, PInf => NaN
  | PInf, _ | _, PInf => PInf
  | NInf, _ | _, NInf => NInf
  end.

(** Infinity times a non-zero finite number, by sign. *)
Definition inf_times (pos : bool) (q : Qc) : xnum :=
  if qeq q 0%Qc then NaN
  else if Bool.eqb pos (qlt 0%Qc q) then PInf else NInf.

Definition xmul (x y : xnum) : xnum :=
  match x, y with
  | Fin p, Fin q => Fin (p * q)%Qc
  | NaN, _ | _, NaN => NaN
  | PInf, Fin q | Fin q, PInf => inf_times true q
  | NInf, Fin q | Fin q, NInf => inf_times false q
  | PInf, PInf | NInf, NInf => PInf
  | PInf, NInf | NInf, PInf => NInf
  end.

(** Division; 0/0 is NaN, x/0 is an infinity with the sign of x (no signed zeros). *)
Definition xdiv (x y : xnum) : xnum :=
  match x, y with
  | NaN, _ | _, NaN => NaN
  | Fin p, Fin q =>
      if qeq q 0%Qc then
        if qeq p 0%Qc then NaN else if qlt 0%Qc p then PInf else NInf
      else Fin (p / q)%Qc
  | Fin _, _ => Fin 0%Qc
  | PInf, Fin q => if qlt q 0%Qc then NInf else PInf
  | NInf, Fin q => if qlt q 0%Qc then PInf else NInf
  | _, _ => NaN
  end.

Definition xlt (x y : xnum) : bool :=
  match x, y with
  | NaN, _ | _, NaN => false
  | Fin p, Fin q => qlt p q
  | NInf, NInf => false
  | NInf, _ => true
  | _, PInf => match x with PInf => false | _ => true end
  | _, _ => false
  end.

Definition xeqb (x y : xnum) : bool :=
  match x, y with
  | Fin p, Fin q => qeq p q
  | PInf, PInf | NInf, NInf => true
  | _, _ => false
  end.

Definition xisnan (x : xnum) : bool := match x with NaN => true | _ => false end.

#[global] Instance xnum_ops : NumOps xnum := {
  n0 := Fin 0%Qc;
  n1 := Fin 1%Qc;
  nadd := xadd;
  nmul := xmul;
  ndiv := xdiv;
  nlt := xlt;
  neqb := xeqb;
  nninf := NInf;
  nnan := NaN;
  nisnan := xisnan;
  nofint := fun z => Fin (Q2Qc (inject_Z z))
}.

(** Printable form of a number, for examples: finite values as reduced fractions. *)
Inductive shown := SFin (q : Q) | SPInf | SNInf | SNaN.
Definition xshow (x : xnum) : shown :=
  match x with Fin q => SFin (this q) | PInf => SPInf | NInf => SNInf | NaN => SNaN end.

(** Rational literal. *)
Definition xq (q : Q) : xnum := Fin (Q2Qc q).

(** ** IEEE-754 binary64 *)

Definition f64 := spec_float.
Definition f64_prec := 53.
Definition f64_emax := 1024.

Definition f64_of_int (z : Z) : f64 := binary_normalize f64_prec f64_emax z 0 false.

#[global] Instance ieee_ops : NumOps f64 := {
  n0 := S754_zero false;
  n1 := f64_of_int 1;
  nadd := SFadd f64_prec f64_emax;
  nmul := SFmul f64_prec f64_emax;
  ndiv := SFdiv f64_prec f64_emax;
  nlt := SFltb;
  neqb := SFeqb;
  nninf := S754_infinity true;
  nnan := S754_nan;
  nisnan := fun x => match x with S754_nan => true | _ => false end;
  nofint := f64_of_int
}.

(** Decimal literal m/10^k, correctly rounded for the small m, k used in examples
    (both m and 10^k are exact, and division rounds to nearest even). *)
Definition f64_dec (m : Z) (k : Z) : f64 :=
  SFdiv f64_prec f64_emax (f64_of_int m) (f64_of_int (10 ^ k)).
