(** Specification vocabulary for networks: enumeration of the joint states of named variables. *)
From Coq Require Import ZArith List Bool String QArith Qcanon.
From Verif Require Import Num GoBase VarModel SpecFactor VEModel SpecVE NetModel.
Import ListNotations.
Open Scope string_scope.
Open Scope list_scope.
Open Scope Z_scope.

(** A state of the world gives every variable name the position of an outcome. *)
Definition nstate := string -> nat.
Definition nupd (s : nstate) (x : string) (k : nat) : nstate := fun y => if String.eqb y x then k else s y.

Definition var_named (vars : list nvar) (x : string) : option nvar :=
  find (fun v => String.eqb (nv_name v) x) vars.
Definition num_outcomes (vars : list nvar) (x : string) : nat :=
  match var_named vars x with Some v => List.length (nv_outcomes v) | None => 0%nat end.
Definition kind (vars : list nvar) (x : string) : option nodeType := option_map nv_type (var_named vars x).
Definition is_kind (t : nodeType) (v : nvar) : bool := nodeType_eqb (nv_type v) t.

(** All joint states of the listed variables, the others as in [s]. *)
Fixpoint joint_states (vars : list nvar) (s : nstate) : list nstate :=
  match vars with
  | [] => [s]
  | v :: r => flat_map (fun k => joint_states r (nupd s (nv_name v) k)) (seq 0 (List.length (nv_outcomes v)))
  end.
Definition nowhere : nstate := fun _ => 0%nat.

(** The position of a state in a table over the named variables, the last one changing fastest. *)
Definition cell (vars : list nvar) (names : list string) (s : nstate) : nat :=
  fold_left (fun i x => (i * num_outcomes vars x + s x)%nat) names 0%nat.
Definition fin_value (x : option xnum) : Qc := match x with Some (Fin q) => q | _ => 0%Qc end.

(** The entry of a factor's table, the sum of the row it belongs to, and the conditional
    probability given by the table after normalising its rows (rows that sum to zero are kept). *)
Definition entry (vars : list nvar) (f : nfactor xnum) (s : nstate) : Qc :=
  fin_value (nth_error (slice_of (nf_table f)) (cell vars (nf_given f ++ [nf_for f]) s)).
Definition row_sum (vars : list nvar) (f : nfactor xnum) (s : nstate) : Qc :=
  qsum (map (fun k => entry vars f (nupd s (nf_for f) k)) (seq 0 (num_outcomes vars (nf_for f)))).
Definition cond_prob (vars : list nvar) (f : nfactor xnum) (s : nstate) : Qc :=
  if qeq (row_sum vars f s) 0%Qc then entry vars f s else (entry vars f s / row_sum vars f s)%Qc.

(** The probability a stored policy gives to a state. Factors refer to variables by their
    position in the network. *)
Definition positions (vars : list nvar) (s : nstate) : asg :=
  fun id => match nth_error vars (Z.to_nat id) with Some v => s (nv_name v) | None => 0%nat end.
Definition policy_prob (vars : list nvar) (p : factor xnum) (s : nstate) : Qc := value p (positions vars s).

Definition chance_factors (n : network xnum) : list (nfactor xnum) :=
  filter (fun f => match kind (n_vars n) (nf_for f) with Some Chance => true | _ => false end) (n_factors n).

(** The joint weight of a state: all conditional probabilities, times the stored policies of
    the decisions that are not ignored. Decisions without a policy have weight one. *)
Definition joint (n : network xnum) (ignored : string -> bool) (s : nstate) : Qc :=
  (qprod (map (fun f => cond_prob (n_vars n) f s) (chance_factors n)) *
   qprod (map (fun dp => policy_prob (n_vars n) (snd dp) s)
     (filter (fun dp => negb (ignored (fst dp))) (n_policies n))))%Qc.

(** The state agrees with observations by name. *)
Definition agrees (vars : list nvar) (ev : list (string * string)) (s : nstate) : bool :=
  forallb (fun '(x, o) =>
    match var_named vars x with
    | None => false
    | Some v => match nth_error (nv_outcomes v) (s x) with Some o' => String.eqb o' o | None => false end
    end) ev.

(** The weight of all states of the chance and decision variables in an event. *)
Definition worlds_of (n : network xnum) : list nstate :=
  joint_states (filter (fun v => negb (is_kind Utility v)) (n_vars n)) nowhere.
Definition mass (n : network xnum) (ignored : string -> bool) (event : nstate -> bool) : Qc :=
  qsum (map (joint n ignored) (filter event (worlds_of n))).

(** P(x = k | ev) *)
Definition posterior (n : network xnum) (ignored : string -> bool) (ev : list (string * string)) (x : string) (k : nat) : Qc :=
  (mass n ignored (fun s => agrees (n_vars n) ev s && (s x =? k)%nat)
   / mass n ignored (agrees (n_vars n) ev))%Qc.

(** With ignorePolicies the policies of decisions with evidence are ignored. *)
Definition ignored_by (ignorePolicies : bool) (ev : list (string * string)) : string -> bool :=
  fun x => ignorePolicies && has_key ev x.

(** ** Utilities *)

(** The position of the first occurrence of a name. *)
Fixpoint position (x : string) (l : list string) : nat :=
  match l with [] => 0%nat | y :: r => if String.eqb x y then 0%nat else S (position x r) end.

(** The factor of the total utility node. *)
Definition total_factor (n : network xnum) : option (nfactor xnum) :=
  if n_tui n <? 0 then None
  else match nth_error (n_vars n) (Z.to_nat (n_tui n)) with
       | Some v => match nv_factor v with Some k => nth_error (n_factors n) k | None => None end
       | None => None
       end.
(** The weight of utility node [x]: 1 without a total utility node, else the entry of the
    total utility node's table at the position of [x] among its parents. *)
Definition net_weight (n : network xnum) (x : string) : Qc :=
  match total_factor n with
  | None => 1%Qc
  | Some f => fin_value (nth_error (slice_of (nf_table f)) (position x (nf_given f)))
  end.

(** ** Well-formed networks *)

(** [x] is the name of the total utility node. *)
Definition is_total (n : network xnum) (x : string) : bool :=
  match nth_error (n_vars n) (Z.to_nat (n_tui n)) with
  | Some v => (0 <=? n_tui n) && String.eqb (nv_name v) x
  | None => false
  end.

(** The number of entries of a table over the named variables. *)
Definition table_size (vars : list nvar) (names : list string) : nat :=
  fold_right (fun x k => (num_outcomes vars x * k)%nat) 1%nat names.

(** A factor variable stands for a chance or decision variable of the network. *)
Definition represents (n : network xnum) (v : variable) : Prop :=
  exists i nv, nth_error (n_vars n) i = Some nv /\ v_id v = Z.of_nat i /\
    Z.of_nat (v_index v) = (if (0 <=? n_tui n) && (n_tui n <? Z.of_nat i) then Z.of_nat i - 1 else Z.of_nat i) /\
    v_outcomes v = List.length (nv_outcomes nv) /\ nv_type nv <> Utility /\
    (v_type v = nv_type nv \/
     nv_type nv = Decision /\ v_type v = Chance /\ has_key (n_policies n) (nv_name nv) = true).

Record wf_table (n : network xnum) (f : nfactor xnum) : Prop := {
  wt_for : exists v, var_named (n_vars n) (nf_for f) = Some v;
  wt_given : forall g, In g (nf_given f) -> is_total n g = false /\ exists v, var_named (n_vars n) g = Some v;
  wt_distinct : NoDup (nf_given f ++ [nf_for f]);
  wt_table : kind (n_vars n) (nf_for f) <> Some Decision -> exists l, nf_table f = Some (map Fin l) /\
    List.length l = table_size (n_vars n) (nf_given f ++ [nf_for f]);
  wt_parents : forall g, In g (nf_given f) -> kind (n_vars n) g <> Some Utility
}.

(** The total utility node, if there is one, lists all other utility nodes as parents and has
    a weight for each of its parents. *)
Definition wf_total (n : network xnum) : Prop :=
  n_tui n = -1 \/
  exists i v k f l, n_tui n = Z.of_nat i /\ nth_error (n_vars n) i = Some v /\ nv_type v = Utility /\
    nv_factor v = Some k /\ nth_error (n_factors n) k = Some f /\
    nf_table f = Some (map Fin l) /\ (List.length (nf_given f) <= List.length l)%nat /\
    forall j u, nth_error (n_vars n) j = Some u -> j <> i -> nv_type u = Utility -> In (nv_name u) (nf_given f).

Record wf_policy (n : network xnum) (x : string) (p : factor xnum) : Prop := {
  wp_decision : kind (n_vars n) x = Some Decision;
  wp_wf : wf_factor p;
  wp_finite : finite_factor p;
  wp_scope : forall v, In v (f_vars p) -> represents n v;
  wp_own : exists i nv v, nth_error (n_vars n) i = Some nv /\ nv_name nv = x /\ In v (f_vars p) /\ v_id v = Z.of_nat i
}.

Record wf_network (n : network xnum) : Prop := {
  wn_names : NoDup (map nv_name (n_vars n));
  wn_nonempty : forall v, In v (n_vars n) -> nv_name v <> "";
  wn_count : zlen (n_vars n) <= 65536;
  wn_outcomes : forall v, In v (n_vars n) -> 0 < zlen (nv_outcomes v) <= 65535;
  wn_distinct : forall v, In v (n_vars n) -> NoDup (nv_outcomes v);
  wn_tables : forall f, In f (n_factors n) -> is_total n (nf_for f) = false -> wf_table n f;
  wn_total : wf_total n;
  wn_keys : NoDup (map fst (n_policies n));
  wn_policies : forall x p, In (x, p) (n_policies n) -> wf_policy n x p
}.

(** The tables of the utility nodes other than the total utility. *)
Definition utility_tables (n : network xnum) : list (nfactor xnum) :=
  filter (fun f => negb (is_total n (nf_for f)) &&
    match kind (n_vars n) (nf_for f) with Some Utility => true | _ => false end) (n_factors n).
(** The weighted sum of all utilities in a state. *)
Definition utility_of (n : network xnum) (s : nstate) : Qc :=
  qsum (map (fun f => net_weight n (nf_for f) * entry (n_vars n) f s)%Qc (utility_tables n)).

(** Every chance variable has a table. *)
Definition complete (n : network xnum) : Prop :=
  forall v, In v (n_vars n) -> nv_type v = Chance -> exists f, In f (n_factors n) /\ nf_for f = nv_name v.

(** No negative probabilities. *)
Definition nonnegative (n : network xnum) : Prop :=
  (forall f s, In f (chance_factors n) -> (0 <= entry (n_vars n) f s)%Qc) /\
  (forall x p s, In (x, p) (n_policies n) -> (0 <= policy_prob (n_vars n) p s)%Qc).

(** Observations by name of existing outcomes of chance and decision variables. *)
Definition valid_observations (n : network xnum) (ev : list (string * string)) : Prop :=
  NoDup (map fst ev) /\
  forall x o, In (x, o) ev -> exists v, var_named (n_vars n) x = Some v /\ nv_type v <> Utility /\ In o (nv_outcomes v).

(** A variable that can be asked for: not observed, not a utility node, and mentioned in a
    table of a chance variable or in a policy that applies. *)
Definition mentioned (n : network xnum) (ignored : string -> bool) (x : string) : Prop :=
  (exists f, In f (chance_factors n) /\ In x (nf_given f ++ [nf_for f])) \/
  (exists d p i v w, In (d, p) (n_policies n) /\ ignored d = false /\
     nth_error (n_vars n) i = Some v /\ nv_name v = x /\ In w (f_vars p) /\ v_id w = Z.of_nat i).

Definition askable (n : network xnum) (ign : string -> bool) (ev : list (string * string)) (q : string) : Prop :=
  (exists v, var_named (n_vars n) q = Some v /\ nv_type v <> Utility) /\ mentioned n ign q /\ ~ In q (map fst ev).

(** ** Construction *)

(** The factor used for a variable: the first one with its name. *)
Definition factor_for {A} (factors : list (nfactor A)) (x : string) : option (nfactor A) :=
  find (fun f => String.eqb (nf_for f) x) factors.

(** [v] is a utility node that collects utilities: its factor has parents, all utility nodes. *)
Definition collects {A} (vars : list nvar) (factors : list (nfactor A)) (v : nvar) : Prop :=
  nv_type v = Utility /\ exists f, factor_for factors (nv_name v) = Some f /\ nf_given f <> [] /\
    forall g, In g (nf_given f) -> kind vars g = Some Utility.
(** [v] is a utility node with parents that are all chance or decision nodes. *)
Definition rewards {A} (vars : list nvar) (factors : list (nfactor A)) (v : nvar) : Prop :=
  nv_type v = Utility /\ exists f, factor_for factors (nv_name v) = Some f /\ nf_given f <> [] /\
    forall g, In g (nf_given f) -> kind vars g = Some Chance \/ kind vars g = Some Decision.

Record valid_structure {A} (vars : list nvar) (factors : list (nfactor A)) : Prop := {
  st_names : NoDup (map nv_name vars);
  st_parents : forall v f g, In v vars -> factor_for factors (nv_name v) = Some f -> In g (nf_given f) ->
    exists p, In p vars /\ nv_name p = g;
  st_utilities : forall v, In v vars -> nv_type v = Utility -> collects vars factors v \/ rewards vars factors v;
  st_single : forall v w, In v vars -> In w vars -> collects vars factors v -> collects vars factors w -> v = w;
  st_weights : forall v f, In v vars -> collects vars factors v -> factor_for factors (nv_name v) = Some f ->
    zlen (nv_outcomes v) = zlen (nf_given f)
}.

(** The index of the total utility node. *)
Definition total_index {A} (vars : list nvar) (factors : list (nfactor A)) (i : Z) : Prop :=
  (i = -1 /\ forall v, In v vars -> ~ collects vars factors v) \/
  (0 <= i /\ exists v, nth_error vars (Z.to_nat i) = Some v /\ collects vars factors v).

(** The network keeps the variables and factors; it links each variable to its factor and
    notes the numbers of outcomes. *)
Definition linked_factor {A} (vars : list nvar) (f : nfactor A) : nfactor A :=
  mkNFactor (nf_for f) (nf_given f) (nf_table f)
    (map (fun g => Z.of_nat (num_outcomes vars g)) (nf_given f)) (Z.of_nat (num_outcomes vars (nf_for f))).
Definition same_variable (v v' : nvar) : Prop :=
  nv_name v' = nv_name v /\ nv_type v' = nv_type v /\ nv_outcomes v' = nv_outcomes v /\
  nv_pos v' = nv_pos v /\ nv_color v' = nv_color v.
Definition same_factor {A} (f f' : nfactor A) : Prop :=
  nf_for f' = nf_for f /\ nf_given f' = nf_given f /\ nf_table f' = nf_table f.

(** Input to New that gives a well-formed network: what New does not check. *)
Record good_input (vars : list nvar) (factors : list (nfactor xnum)) : Prop := {
  gi_unlinked : forall v, In v vars -> nv_factor v = None;
  gi_nonempty : forall v, In v vars -> nv_name v <> "";
  gi_count : zlen vars <= 65536;
  gi_outcomes : forall v, In v vars -> 0 < zlen (nv_outcomes v) <= 65535 /\ NoDup (nv_outcomes v);
  gi_for : forall f, In f factors -> exists v, In v vars /\ nv_name v = nf_for f;
  gi_tables : forall f v, In f factors -> In v vars -> nv_name v = nf_for f -> ~ collects vars factors v ->
    NoDup (nf_given f ++ [nf_for f]) /\
    (forall g, In g (nf_given f) -> kind vars g = Some Chance \/ kind vars g = Some Decision) /\
    (nv_type v <> Decision -> exists l, nf_table f = Some (map Fin l) /\
       List.length l = table_size vars (nf_given f ++ [nf_for f]));
  gi_total : forall f v, In v vars -> collects vars factors v -> factor_for factors (nv_name v) = Some f ->
    (exists l, nf_table f = Some (map Fin l) /\ (List.length (nf_given f) <= List.length l)%nat) /\
    forall u, In u vars -> nv_type u = Utility -> u <> v -> In (nv_name u) (nf_given f)
}.

(** ** Factors returned by the solver *)

(** The names of a factor's variables and its value in a state. *)
Definition factor_names (n : network xnum) (f : factor xnum) : list string :=
  map (fun v => match nth_error (n_vars n) (Z.to_nat (v_id v)) with Some nv => nv_name nv | None => "" end) (f_vars f).
Definition factor_value (n : network xnum) (f : factor xnum) (s : nstate) : Qc := value f (positions (n_vars n) s).
(** [s] is a state of the network: positions of existing outcomes. *)
Definition proper_state (n : network xnum) (s : nstate) : Prop :=
  forall v, In v (n_vars n) -> (s (nv_name v) < List.length (nv_outcomes v))%nat.
(** Two states agree on the named variables. *)
Definition same_on (names : list string) (s0 s : nstate) : bool := forallb (fun x => (s x =? s0 x)%nat) names.
(** Sum of [F] over all states of the chance and decision variables in an event. *)
Definition sum_over (n : network xnum) (F : nstate -> Qc) (event : nstate -> bool) : Qc :=
  qsum (map F (filter event (worlds_of n))).
(** Every decision has a policy. *)
Definition solved (n : network xnum) : Prop :=
  forall v, In v (n_vars n) -> nv_type v = Decision -> has_key (n_policies n) (nv_name v) = true.
(** All utility nodes but the total utility have one outcome and a table. *)
Definition plain_utilities (n : network xnum) : Prop :=
  forall v, In v (n_vars n) -> nv_type v = Utility -> is_total n (nv_name v) = false ->
    List.length (nv_outcomes v) = 1%nat /\ exists f, In f (n_factors n) /\ nf_for f = nv_name v.
(** There is a utility node besides the total utility. *)
Definition some_utility (n : network xnum) : Prop :=
  exists v, In v (n_vars n) /\ nv_type v = Utility /\ is_total n (nv_name v) = false.
(** A decision without policy, and the variables declared as known to such a decision. *)
Definition open_decision (n : network xnum) (d : string) : Prop :=
  kind (n_vars n) d = Some Decision /\ has_key (n_policies n) d = false.
Definition informs (n : network xnum) (x : string) : Prop :=
  exists f, In f (n_factors n) /\ open_decision n (nf_for f) /\ In x (nf_given f).
(** [x] is mentioned by a probability or by a utility. *)
Definition relevant (n : network xnum) (ignored : string -> bool) (x : string) : Prop :=
  mentioned n ignored x \/ exists f, In f (utility_tables n) /\ In x (nf_given f ++ [nf_for f]).

(** [f] is the factor over the query (and over what is needed for open decisions) that sums
    [F] over all states that agree with the evidence and with the factor's variables. The sum
    ranges over the variables in [rel]; others multiply it by a constant [c]. The factor
    also keeps the utility nodes in [uts], which have one outcome. *)
Record result_factor (n : network xnum) (ev : list (string * string)) (query uts : list string)
  (rel : string -> Prop) (F : nstate -> Qc) (f : factor xnum) : Prop := {
  rf_wf : wf_factor f;
  rf_finite : finite_factor f;
  rf_query : forall x, In x query -> rel x -> ~ In x (map fst ev) -> In x (factor_names n f);
  rf_names : forall x, In x (factor_names n f) ->
    rel x /\ ~ In x (map fst ev) /\ exists t, kind (n_vars n) x = Some t /\
    (t = Utility /\ In x uts \/ t <> Utility /\ (In x query \/ open_decision n x \/ informs n x));
  rf_value : exists c, (0 < c)%Qc /\
    ((forall v, In v (n_vars n) -> nv_type v <> Utility -> ~ In (nv_name v) (map fst ev) -> rel (nv_name v)) -> c = 1%Qc) /\
    forall s, proper_state n s -> (c * factor_value n f s)%Qc =
      sum_over n F (fun s' => agrees (n_vars n) ev s' && same_on (factor_names n f) s s')
}.
(** The names of the query are chance or decision variables. *)
Definition valid_query (n : network xnum) (query : list string) : Prop :=
  forall q, In q query -> exists v, var_named (n_vars n) q = Some v /\ nv_type v <> Utility.

(** The utility of one node: the entry of its table (the product, if it has several tables). *)
Definition one_utility (n : network xnum) (u : string) (s : nstate) : Qc :=
  qprod (map (fun f => entry (n_vars n) f s) (filter (fun f => String.eqb (nf_for f) u) (utility_tables n))).
Definition relevant_to (n : network xnum) (ignored : string -> bool) (u x : string) : Prop :=
  mentioned n ignored x \/ exists f, In f (utility_tables n) /\ nf_for f = u /\ In x (nf_given f ++ [nf_for f]).

(** ** Histories of calls *)
Section History.
Context {A : Type} {N : NumOps A}.

(** The calls of the API that work on a network, each with its own orders of map iteration. *)
Inductive call : Type :=
| CSolveQuery (sc : sched) (ev : list (string * string)) (query : list string) (ignorePolicies : bool)
| CSolveUtility (sc : sched) (ev : list (string * string)) (query : list string) (utility : string) (ignorePolicies : bool)
| CSolvePolicies (sc : sched) (stepwise : bool)
| CNormalize (f : factor A)
| CNormalizeUtility (utility probs : factor A)
| CMarginal (f : factor A) (v : string)
| CRearrange (f : factor A) (names : list string)
| CToEvidence (v value : string).

(** The network after a call. A panic in a call on factors leaves it as it was. *)
Definition left_by {X} (n : network A) (r : gores (network A * X)) : network A :=
  match r with Ok (n', _) => n' | _ => n end.
Definition after_call (n : network A) (c : call) : network A :=
  match c with
  | CSolveQuery sc ev q ig => fst (net_solve_query sc n ev q ig)
  | CSolveUtility sc ev q u ig => fst (net_solve_utility sc n ev q u ig)
  | CSolvePolicies sc st => fst (net_solve_policies sc n st)
  | CNormalize f => left_by n (net_normalize n f)
  | CNormalizeUtility u p => left_by n (net_normalize_utility n u p)
  | CMarginal f v => left_by n (net_marginal n f v)
  | CRearrange f l => left_by n (net_rearrange n f l)
  | CToEvidence _ _ => n
  end.
Definition after (n : network A) (cs : list call) : network A := fold_left after_call cs n.

(** Only the last call of SolvePolicies in a history. *)
Definition last_policies (cs : list call) : list call :=
  fold_left (fun acc c => match c with CSolvePolicies _ _ => [c] | _ => acc end) cs [].
End History.

(** ** Complete probability models *)

(** The names of the variables with a conditional distribution: a table or a policy that applies. *)
Definition conditionals (n : network xnum) (ign : string -> bool) : list string :=
  map nf_for (chance_factors n) ++ map fst (filter (fun dp => negb (ign (fst dp))) (n_policies n)).

(** Every chance and decision variable but those in [free] has one conditional distribution,
    the graph has no cycle, no row of a table sums to zero, and policies are distributions. *)
Record causal (n : network xnum) (ign : string -> bool) (free : list string) : Prop := {
  ca_unique : NoDup (conditionals n ign);
  ca_all : forall v, In v (n_vars n) -> nv_type v <> Utility ->
    (In (nv_name v) (conditionals n ign) <-> ~ In (nv_name v) free);
  ca_order : exists rank : string -> nat,
    (forall f g, In f (chance_factors n) -> In g (nf_given f) -> (rank g < rank (nf_for f))%nat) /\
    (forall d p x, In (d, p) (n_policies n) -> ign d = false -> In x (factor_names n p) -> x <> d -> (rank x < rank d)%nat);
  ca_rows : forall f s, In f (chance_factors n) -> proper_state n s -> row_sum (n_vars n) f s <> 0%Qc;
  ca_policies : forall d p s, In (d, p) (n_policies n) -> ign d = false -> proper_state n s ->
    qsum (map (fun k => policy_prob (n_vars n) p (nupd s d k)) (seq 0 (num_outcomes (n_vars n) d))) = 1%Qc
}.

(** ** Changing the scale of table rows *)

(** [g] is [f] with every row multiplied by a positive number. *)
Definition in_table (vars : list nvar) (f : nfactor xnum) (s : nstate) : Prop :=
  forall x, In x (nf_given f ++ [nf_for f]) -> (s x < num_outcomes vars x)%nat.
Definition row_scaled (vars : list nvar) (f g : nfactor xnum) : Prop :=
  nf_for g = nf_for f /\ nf_given g = nf_given f /\
  exists c : nstate -> Qc, (forall s, (0 < c s)%Qc) /\ (forall s k, c (nupd s (nf_for f) k) = c s) /\
    (forall s s', (forall y, s y = s' y) -> c s = c s') /\
    forall s, in_table vars f s -> entry vars g s = (c s * entry vars f s)%Qc.
(** [n'] is [n] with rows of tables of chance variables scaled. *)
Record rescaled (n n' : network xnum) : Prop := {
  rs_vars : n_vars n' = n_vars n;
  rs_policies : n_policies n' = n_policies n;
  rs_tui : n_tui n' = n_tui n;
  rs_total : total_factor n' = total_factor n;
  rs_factors : Forall2 (fun f g => g = f \/ (In f (chance_factors n) /\ row_scaled (n_vars n) f g)) (n_factors n) (n_factors n');
  rs_rows : forall f s, In f (chance_factors n) -> in_table (n_vars n) f s -> row_sum (n_vars n) f s = 0%Qc -> entry (n_vars n) f s = 0%Qc
}.

(** ** Wrong names *)

(** No variable of this name can be used in a query: there is none, or it is the total utility. *)
Definition bad_name (n : network xnum) (x : string) : Prop := var_named (n_vars n) x = None \/ is_total n x = true.
Definition bad_observation (n : network xnum) (x o : string) : Prop :=
  bad_name n x \/ exists v, var_named (n_vars n) x = Some v /\ ~ In o (nv_outcomes v).

(** ** Rows of tables *)

(** The number of the row for given outcomes of the parents, the last parent changing fastest. *)
Definition row_number (outcomes indices : list Z) : Z :=
  fold_left (fun r '((o, i) : Z * Z) => r * o + i) (combine outcomes indices) 0.
(** The [k]-th block of [c] entries. *)
Definition table_row {A} (table : list A) (c : Z) (k : Z) : list A :=
  firstn (Z.to_nat c) (skipn (Z.to_nat (k * c)) table).

(** ** A total utility node that does not list all utility nodes *)
Record forgetful_total (n : network xnum) (u : string) : Prop := {
  ft_names : NoDup (map nv_name (n_vars n));
  ft_nonempty : forall v, In v (n_vars n) -> nv_name v <> "";
  ft_count : zlen (n_vars n) <= 65536;
  ft_outcomes : forall v, In v (n_vars n) -> 0 < zlen (nv_outcomes v) <= 65535;
  ft_distinct : forall v, In v (n_vars n) -> NoDup (nv_outcomes v);
  ft_tables : forall f, In f (n_factors n) -> is_total n (nf_for f) = false -> wf_table n f;
  ft_keys : NoDup (map fst (n_policies n));
  ft_policies : forall x p, In (x, p) (n_policies n) -> wf_policy n x p;
  ft_total : exists i v k f l, n_tui n = Z.of_nat i /\ nth_error (n_vars n) i = Some v /\ nv_type v = Utility /\
    nv_factor v = Some k /\ nth_error (n_factors n) k = Some f /\ nf_for f = nv_name v /\
    nf_table f = Some (map Fin l) /\ (List.length (nf_given f) <= List.length l)%nat /\
    u <> nv_name v /\ kind (n_vars n) u = Some Utility /\ ~ In u (nf_given f)
}.
