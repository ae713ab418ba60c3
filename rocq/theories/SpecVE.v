(** Specification vocabulary for variable elimination: brute-force enumeration. *)
From Coq Require Import ZArith List Bool QArith Qcanon.
From Verif Require Import Num GoBase VarModel SpecFactor VEModel.
Import ListNotations.
Open Scope Z_scope.

(** The finite value of a factor under a joint assignment. *)
Definition value (f : factor xnum) (a : asg) : Qc :=
  match get_at f a with Ok (Fin q) => q | _ => 0%Qc end.

(** All values of the factor are finite numbers. *)
Definition finite_factor (f : factor xnum) : Prop :=
  forall a, in_range (f_vars f) a -> exists q, get_at f a = Ok (Fin q).

(** The assignment with the observed values plugged in (the first observation of a
    variable counts). *)
Definition plug (evs : list evidence) (a : asg) : asg :=
  fold_right (fun ev a => upd a (v_id (ev_var ev)) (Z.to_nat (ev_value ev))) a evs.

(** Every observation is about a known variable and one of its outcomes. *)
Definition valid_evidence (V : list variable) (evs : list evidence) : Prop :=
  forall ev, In ev evs -> In (ev_var ev) V /\ v_type (ev_var ev) <> Utility /\
    0 <= ev_value ev < v_out (ev_var ev).

Definition is_evidence (evs : list evidence) (v : variable) : bool :=
  existsb (fun ev => v_id (ev_var ev) =? v_id v) evs.

(** Factors that mention a utility variable, and the others. *)
Definition is_utility_factor {A} (f : factor A) : bool :=
  existsb (fun v => nodeType_eqb (v_type v) Utility) (f_vars f).
Definition prob_factors {A} (fs : list (factor A)) : list (factor A) :=
  filter (fun f => negb (is_utility_factor f)) fs.
Definition utility_factors {A} (fs : list (factor A)) : list (factor A) :=
  filter is_utility_factor fs.

(** [v] is declared as a parent of some decision variable. *)
Definition is_decision_parent (V : list variable) (deps : depmap) (v : variable) : bool :=
  existsb (fun '(d, parents) =>
      contains_var V d && nodeType_eqb (v_type d) Decision && contains_id parents (v_id v)) deps.

(** The variables that are summed out: chance variables that are neither observed nor
    asked for nor parents of a decision. *)
Definition hidden_in (V : list variable) (deps : depmap) (evs : list evidence) (query : list variable)
  : list variable :=
  filter (fun v => nodeType_eqb (v_type v) Chance && negb (is_decision_parent V deps v)
                   && negb (is_evidence evs v) && negb (contains_id query (v_id v))) V.

(** Product of the values of the factors. *)
Definition weight_of (fs : list (factor xnum)) (a : asg) : Qc := qprod (map (fun f => value f a) fs).

(** A well-formed elimination problem: distinct variables numbered in order of
    declaration, factors over these variables created by the given Variables instance
    with finite entries, parent lists of known variables. *)
Record ve_problem (vs : vstate) (fs : list (factor xnum)) (deps : depmap) : Prop := {
  vp_vars : wf_vars (vs_vars vs);
  vp_index : forall i v, nth_error (vs_vars vs) i = Some v -> v_index v = i;
  vp_factors : forall f, In f fs -> wf_factor f /\ finite_factor f /\ incl (f_vars f) (vs_vars vs) /\
                 f_id f < vs_counter vs;
  vp_ids : NoDup (map f_id fs);
  vp_deps_keys : NoDup (map fst deps);
  vp_deps : forall d parents, In (d, parents) deps -> In d (vs_vars vs) /\ incl parents (vs_vars vs)
}.

(** The utility variables in order of declaration. *)
Definition utilities_of (V : list variable) : list variable :=
  filter (fun v => nodeType_eqb (v_type v) Utility) V.

(** The weight of a utility factor: 1 without weights, else the weight at the position of
    the first utility variable (in order of declaration) that the factor mentions. *)
Definition utility_weight (V : list variable) (weights : option (list Qc)) (f : factor xnum) : Qc :=
  match weights with
  | None => 1%Qc
  | Some w => nth (Z.to_nat (index_func (fun u => contains_var (f_vars f) u) (utilities_of V))) w 0%Qc
  end.

(** The weighted sum of all utility factors. *)
Definition total_utility (V : list variable) (weights : option (list Qc)) (fs : list (factor xnum)) (a : asg) : Qc :=
  qsum (map (fun f => utility_weight V weights f * value f a)%Qc (utility_factors fs)).

(** The factors that mention no utility variable other than [u]. *)
Definition factors_without_other_utilities {A} (u : variable) (fs : list (factor A)) : list (factor A) :=
  filter (fun f => forallb (fun v => negb (nodeType_eqb (v_type v) Utility) || (v_id v =? v_id u)) (f_vars f)) fs.

(** Weights as stored by the program. *)
Definition finite_weights (w : option (list Qc)) : option (list xnum) := option_map (map Fin) w.
