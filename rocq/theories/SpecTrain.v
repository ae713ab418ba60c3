(** Specification vocabulary for training. *)
From Coq Require Import ZArith QArith Qcanon List Bool String.
From Verif Require Import Num GoBase VarModel NetModel XnumFacts SpecNet.
Import ListNotations.
Open Scope string_scope.
Open Scope list_scope.
Open Scope Z_scope.

(** A sample: an outcome number for each variable (negative when missing) and, optionally, a
    utility for each variable (only used for utility nodes; NaN when missing). *)
Notation sample A := (list Z * option (list A))%type.

Definition position (vars : list nvar) (x : string) : nat :=
  Z.to_nat (index_func (fun v => String.eqb (nv_name v) x) vars).
(** What a sample says about a variable. *)
Definition observed {A} (vars : list nvar) (smp : sample A) (x : string) : Z := nth (position vars x) (fst smp) (-1).
Definition reported {A} {N : NumOps A} (vars : list nvar) (smp : sample A) (x : string) : A :=
  nth (position vars x) (slice_of (snd smp)) nnan.
(** The sample has the outcomes of state [s] for the named variables. *)
Definition shows {A} (vars : list nvar) (names : list string) (s : nstate) (smp : sample A) : bool :=
  forallb (fun x => observed vars smp x =? Z.of_nat (s x)) names.

(** Samples with an entry for each variable and no outcome numbers that are too large. The
    utilities can be left out if there are no utility nodes. *)
Record valid_sample {A} (vars : list nvar) (smp : sample A) : Prop := {
  vs_length : List.length (fst smp) = List.length vars;
  vs_range : forall v, In v vars -> observed vars smp (nv_name v) < zlen (nv_outcomes v);
  vs_utility : match snd smp with
               | Some u => List.length u = List.length vars
               | None => forall v, In v vars -> nv_type v <> Utility
               end
}.

(** The factor of a variable. *)
Definition own_factor {A} (n : network A) (v : nvar) (f : nfactor A) : Prop :=
  exists k, nv_factor v = Some k /\ nth_error (n_factors n) k = Some f.

(** Networks that can be trained: every variable has its factor with a complete table, decisions
    have none. *)
Record trainable {A} (n : network A) : Prop := {
  ta_names : NoDup (map nv_name (n_vars n));
  ta_outcomes : forall v, In v (n_vars n) -> nv_outcomes v <> [];
  ta_factor : forall v, In v (n_vars n) -> exists f, own_factor n v f /\ nf_for f = nv_name v /\
    nf_outcomes f = map (fun g => Z.of_nat (num_outcomes (n_vars n) g)) (nf_given f) /\
    nf_columns f = zlen (nv_outcomes v) /\
    (forall g, In g (nf_given f) -> exists p, In p (n_vars n) /\ nv_name p = g) /\
    (nv_type v = Decision -> slice_of (nf_table f) = []) /\
    (nv_type v <> Decision -> List.length (slice_of (nf_table f)) = table_size (n_vars n) (nf_given f ++ [nf_for f]))
}.

Definition count_of {X} (p : X -> bool) (l : list X) : Z := zlen (filter p l).
Definition finite_value (x : xnum) : Qc := match x with Fin q => q | _ => 0%Qc end.
Definition qz (z : Z) : Qc := Q2Qc (inject_Z z).

(** The samples that count for the table row of state [s]: the parents' outcomes are those of [s]
    and there is a value for the variable itself. *)
Definition usable {A} {N : NumOps A} (vars : list nvar) (v : nvar) (given : list string) (s : nstate) (smp : sample A) : bool :=
  shows vars given s smp &&
  (if nodeType_eqb (nv_type v) Utility then negb (nisnan (reported vars smp (nv_name v))) else 0 <=? observed vars smp (nv_name v)).
(** [s] gives every variable one of its outcomes. *)
Definition state_of (vars : list nvar) (s : nstate) : Prop :=
  forall v, In v vars -> (s (nv_name v) < List.length (nv_outcomes v))%nat.
(** Only table entries differ between two networks. *)
Definition same_tables_shape {A} (f f' : nfactor A) : Prop :=
  nf_for f' = nf_for f /\ nf_given f' = nf_given f /\ nf_outcomes f' = nf_outcomes f /\ nf_columns f' = nf_columns f /\
  option_map (@List.length A) (nf_table f') = option_map (@List.length A) (nf_table f).
Definition only_tables_differ {A} (n n' : network A) : Prop :=
  n_name n' = n_name n /\ n_info n' = n_info n /\ n_vars n' = n_vars n /\ n_policies n' = n_policies n /\
  n_ve n' = n_ve n /\ n_names n' = n_names n /\ n_tui n' = n_tui n /\ Forall2 same_tables_shape (n_factors n) (n_factors n').
(** The samples that count for a row, their outcomes and utilities. *)
Definition usable_count {A} {N : NumOps A} (vars : list nvar) (v : nvar) (given : list string) (s : nstate) (samples : list (sample A)) : Z :=
  count_of (usable vars v given s) samples.
