(** Properties C44-C50: logic operators (package logic).
    Specification vocabulary: SpecLogic.v. *)
From Coq Require Import ZArith List Bool String Lia QArith Qcanon.
From Verif Require Import Num GoBase VarModel GoFacts LogicModel SpecLogic LogicFacts LogicThms LogicShape.
Import ListNotations.
Open Scope string_scope.
Open Scope list_scope.
Open Scope Z_scope.

(** The result of Get(name), SetArgs(args...) and Table(given) on a fresh program. *)
Definition node_table {A} {N : NumOps A} (name : string) (args : list Z) (given : Z) : gores (list A) :=
  fst (use_operator factors name args given).
Definition shown_table (r : gores (list xnum)) : option (list shown) := match r with Ok t => Some (map xshow t) | _ => None end.
(** A table with [columns] entries in each of [rows] rows can be allocated (Go's limit of 2^48
    bytes). *)
Definition allocatable (rows columns : Z) : Prop := rows * columns <= 2 ^ 45.

Section All.
Context {A : Type} {N : NumOps A}.

(** ** C44: connectives *)
Theorem C44_unary : forall name f, In (name, f) unary_formulas ->
  node_table name [] 1 = Ok (table_by (A := A) 1 (fun p => truth (f (parent 0 p)))).
Proof. intros name f H. unfold unary_formulas in H. repeat (destruct H as [E|H]; [injection E as <- <-; reflexivity|]). destruct H. Qed.

Theorem C44_binary : forall name f, In (name, f) binary_formulas ->
  node_table name [] 2 = Ok (table_by (A := A) 2 (fun p => truth (f (parent 0 p) (parent 1 p)))).
Proof. intros name f H. unfold binary_formulas in H. repeat (destruct H as [E|H]; [injection E as <- <-; reflexivity|]). destruct H. Qed.

Theorem C44_conditions : forall name row, In (name, row) (conditions (A := A)) ->
  node_table name [] 1 = Ok (table_by 1 (fun p => row (parent 0 p))).
Proof. intros name f H. unfold conditions in H. repeat (destruct H as [E|H]; [injection E as <- <-; reflexivity|]). destruct H. Qed.

Lemma pow_size g k : 0 <= g -> 0 <= k <= 10 -> 2 ^ k = wrap64 (rows_of g) -> g = k.
Proof.
  intros Hg Hk H. destruct (Z.le_gt_cases 64 g).
  { unfold rows_of in H. replace ((g <? 0) || (64 <=? g)) with true in H by lia. change (wrap64 0) with 0 in H. assert (0 < 2 ^ k) by (apply Z.pow_pos_nonneg; lia). lia. }
  assert (C : forallb (fun k => forallb (fun g => (g =? k) || negb (2 ^ k =? wrap64 (rows_of g))) (zrange 0 64)) (zrange 0 11) = true) by (vm_compute; reflexivity).
  rewrite forallb_forall in C. specialize (C k ltac:(apply zrange_In; lia)). rewrite forallb_forall in C. specialize (C g ltac:(apply zrange_In; lia)). lia.
Qed.

(** A wrong number of parents is an error. *)
Theorem C44_wrong_parents : forall name parents given, 0 <= given -> given <> parents ->
  (parents = 1 /\ In name (map fst unary_formulas ++ map fst (conditions (A := A)))) \/ (parents = 2 /\ In name (map fst binary_formulas)) ->
  exists e, node_table (A := A) name [] given = Err e.
Proof.
  assert (GB : forall l k g, 0 <= k <= 10 -> zlen l = 2 ^ k -> 0 <= g -> g <> k -> exists e, bool_table (A := A) l g = Err e).
  { intros l k g Hk Hl Hg Hne. unfold bool_table. replace (g <? 0) with false by lia. rewrite Hl. destruct (Z.eqb_spec (2 ^ k) (wrap64 (rows_of g))) as [E|]; [|eexists; reflexivity].
    destruct Hne. apply pow_size; auto. }
  assert (GF : forall l g, zlen l = 4 -> 0 <= g -> g <> 1 -> exists e, float_table (A := A) l g = Err e).
  { intros l g Hl Hg Hne. unfold float_table. replace (g + 1 <? 0) with false by lia. rewrite Hl. destruct (Z.eqb_spec 4 (wrap64 (rows_of (g + 1)))) as [E|]; [|eexists; reflexivity].
    destruct Hne. apply (pow_size (g + 1) 2) in E; lia. }
  intros name parents given Hg Hne [[-> H]|[-> H]]; simpl in H;
    repeat (destruct H as [<-|H]; [first [apply (GB _ 1); [lia|reflexivity|lia|lia] | apply (GB _ 2); [lia|reflexivity|lia|lia] | apply GF; [reflexivity|lia|lia]]|]); destruct H.
Qed.

(** Connectives take no arguments. *)
Theorem C44_arguments : forall name a args given,
  In name (map fst unary_formulas ++ map fst (conditions (A := A)) ++ map fst binary_formulas) ->
  exists e, node_table (A := A) name (a :: args) given = Err e.
Proof. intros name a args given H. simpl in H. repeat (destruct H as [<-|H]; [eexists; reflexivity|]). destruct H. Qed.

(** ** C45: counting *)
Theorem C45_count : forall value given, 0 <= given -> allocatable (2 ^ given) 2 ->
  node_table "count-is" [value] given = Ok (table_by (A := A) given (fun p => truth (count_true p =? value))) /\
  node_table "count-less" [value] given = Ok (table_by (A := A) given (fun p => truth (count_true p <? value))) /\
  node_table "count-greater" [value] given = Ok (table_by (A := A) given (fun p => truth (count_true p >? value))).
Proof.
  intros value given Hg Hf. split; [|split].
  - exact (count_table_ok RIs value given Hg Hf).
  - exact (count_table_ok RLess value given Hg Hf).
  - etransitivity; [exact (count_table_ok RGreater value given Hg Hf)|]. f_equal. unfold table_by. apply flat_map_ext. intros p. unfold apply_rule. rewrite Z.gtb_ltb. auto.
Qed.

Theorem C45_count_true_false : forall given, 0 <= given -> allocatable (2 ^ given) (given + 1) ->
  node_table "count-true" [] given = Ok (table_by (A := A) given (fun p => certain (given + 1) (count_true p))) /\
  node_table "count-false" [] given = Ok (table_by (A := A) given (fun p => certain (given + 1) (count_false p))).
Proof. intros given Hg Hf. split; [exact (count_true_table_ok given Hg Hf)|exact (count_false_table_ok given Hg Hf)]. Qed.

(** ** C46: bits *)
Theorem C46_bits : forall given, 0 <= given -> allocatable (2 ^ given) (2 ^ given) ->
  node_table "bits" [] given = Ok (table_by (A := A) given (fun p => certain (2 ^ given) (bits_value p))).
Proof. intros given Hg Hf. exact (bits_table_ok given Hg Hf). Qed.

(** ** C47: given. The index counts from the last parent. *)
Theorem C47_given_partial : forall idx given, 0 <= idx < given -> allocatable (2 ^ given) 2 ->
  node_table "given" [idx] given = Ok (table_by (A := A) given (fun p => truth (parent (given - 1 - idx) p))) /\
  node_table "given-not" [idx] given = Ok (table_by (A := A) given (fun p => truth (negb (parent (given - 1 - idx) p)))) /\
  node_table "given-excl" [idx] given = Ok (table_by (A := A) given (fun p => truth (only_parent given (given - 1 - idx) p))).
Proof.
  intros idx given Hi Hf.
  assert (E : forall p, tested given idx p = parent (given - 1 - idx) p) by (intros p; unfold tested; replace (idx <? given) with true by lia; auto).
  split; [|split].
  - etransitivity; [exact (given_table_ok idx given ltac:(lia) ltac:(lia) Hf)|]. f_equal. unfold table_by. apply flat_map_ext. intros p. rewrite E. auto.
  - etransitivity; [exact (given_not_table_ok idx given ltac:(lia) ltac:(lia) Hf)|]. f_equal. unfold table_by. apply flat_map_ext. intros p. rewrite E. auto.
  - exact (given_excl_table_ok idx given ltac:(lia) ltac:(lia) Hf).
Qed.

(** With a single parent, or for the middle one, this is the parent at the index. *)
Corollary C47_given_middle_partial : forall idx given, 0 <= idx -> given = 2 * idx + 1 -> allocatable (2 ^ given) 2 ->
  node_table "given" [idx] given = Ok (table_by (A := A) given (fun p => truth (parent idx p))) /\
  node_table "given-not" [idx] given = Ok (table_by (A := A) given (fun p => truth (negb (parent idx p)))) /\
  node_table "given-excl" [idx] given = Ok (table_by (A := A) given (fun p => truth (only_parent given idx p))).
Proof.
  intros idx given Hi Hg Hf. pose proof (C47_given_partial idx given ltac:(lia) Hf) as H. replace (given - 1 - idx) with idx in H by lia. exact H.
Qed.

(** An index beyond the parents is accepted and always true; a negative index panics. *)
Theorem C47_index_out_of_range_refuted : forall idx given, 0 <= given -> allocatable (2 ^ given) 2 ->
  (given <= idx -> node_table "given" [idx] given = Ok (table_by (A := A) given (fun _ => truth true))) /\
  (idx < 0 -> node_table (A := A) "given" [idx] given = Panic PShift).
Proof.
  intros idx given Hg Hf. split; intros Hi.
  - etransitivity; [exact (given_table_ok idx given ltac:(lia) ltac:(lia) Hf)|]. f_equal. unfold table_by. apply flat_map_ext. intros p. unfold tested. replace (idx <? given) with false by lia. auto.
  - exact (proj1 (given_negative idx given Hi Hg Hf)).
Qed.

(** ** C48: outcomes of the parent *)
Theorem C48_outcome : forall idx outcomes, 0 <= idx < outcomes -> allocatable outcomes 2 ->
  node_table "outcome-is" [idx; outcomes] 1 = Ok (table_by_outcome (A := A) outcomes (fun k => truth (k =? idx))) /\
  node_table "outcome-is-not" [idx; outcomes] 1 = Ok (table_by_outcome (A := A) outcomes (fun k => truth (negb (k =? idx)))).
Proof. intros idx n Hi Hf. split; [exact (outcome_is_ok idx n Hi Hf)|exact (outcome_is_not_ok idx n Hi Hf)]. Qed.

Theorem C48_outcome_either : forall indices outcomes, indices <> [] -> (forall i, In i indices -> 0 <= i < outcomes) -> allocatable outcomes 2 ->
  node_table "outcome-either" (indices ++ [outcomes]) 1 = Ok (table_by_outcome (A := A) outcomes (fun k => truth (existsb (Z.eqb k) indices))).
Proof.
  intros l n Hne Hi Hf. assert (Hn : 0 <= n). { destruct l as [|i l]; [tauto|]. specialize (Hi i (or_introl eq_refl)). lia. }
  rewrite <- (outcome_either_ok l n Hi Hn Hf).
  assert (E : set_args (LOutcomeEither (A := A) [] 0) (l ++ [n]) = Ok (LOutcomeEither l n)).
  { destruct l as [|a [|b l]]; [tauto|reflexivity|]. cbn [app set_args]. change (a :: b :: l ++ [n]) with ((a :: b :: l) ++ [n]). rewrite removelast_last, last_last. auto. }
  unfold node_table, use_operator, reg_set_args. change (logic_get factors "outcome-either") with (Some (LOutcomeEither (A := A) [] 0)). cbv iota. rewrite E. reflexivity.
Qed.

Theorem C48_outcome_less : forall idx outcomes, 0 <= idx <= outcomes -> allocatable outcomes 2 ->
  node_table "outcome-less" [idx; outcomes] 1 = Ok (table_by_outcome (A := A) outcomes (fun k => truth (k <? idx))).
Proof. intros idx n Hi Hf. exact (outcome_less_ok idx n Hi Hf). Qed.

(** outcome-greater is also true for the index itself. *)
Theorem C48_outcome_greater_partial : forall idx outcomes, 0 <= idx <= outcomes -> allocatable outcomes 2 ->
  node_table "outcome-greater" [idx; outcomes] 1 = Ok (table_by_outcome (A := A) outcomes (fun k => truth (k >=? idx))).
Proof.
  intros idx n Hi Hf. etransitivity; [exact (outcome_greater_ok idx n Hi Hf)|]. f_equal. apply flat_map_ext. intros k. rewrite Z.geb_leb. auto.
Qed.

(** Any other number of parents is an error. *)
Theorem C48_parents : forall name idx outcomes given,
  In name outcome_operators -> given <> 1 ->
  exists e, node_table (A := A) name [idx; outcomes] given = Err e.
Proof.
  intros name idx n given H Hg. simpl in H.
  assert (E : forall k : list A -> gores (list A), exists e, (let! t := outcome_start n given in k t) = Err e).
  { intros k. unfold outcome_start. replace (given =? 1) with false by lia. eexists; reflexivity. }
  repeat (destruct H as [<-|H]; [apply E|]). destruct H.
Qed.

(** ** C49: valid tables. For at most 63 parents and a non-negative number of outcomes of the
    parent; arguments are integers of 64 bits. *)
Theorem C49_valid_partial : forall name args given t,
  In name (map fst (factors (A := A))) -> (forall a, In a args -> - 2 ^ 63 <= a < 2 ^ 63) ->
  (In name outcome_operators -> 0 <= last args 0) -> 0 <= given <= 63 -> node_table name args given = Ok t ->
  exists rows, t = List.concat rows /\ zlen rows = node_rows name args given /\ (forall r, In r rows -> valid_row (node_columns name given) r).
Proof. exact named_tables. Qed.

(** ** C50: operators do not keep state between nodes. The operators are shared objects; after
    any calls of SetArgs and Table on them, whatever their order, a parser that fetches an
    operator, sets its arguments and asks for the table gets what it would get from a new
    operator. *)
Theorem C50_sequential : forall calls name args given,
  fst (use_operator (snd (run_calls factors calls)) name args given) = node_table (A := A) name args given.
Proof. intros calls name args given. apply sequential_use, run_calls_like, like_new_start. Qed.
End All.

(** ** Refutations *)
Theorem C47_given_refuted : exists idx given : Z, 0 <= idx < given /\
  node_table "given" [idx] given <> Ok (table_by (A := xnum) given (fun p => truth (parent idx p))) /\
  node_table "given-not" [idx] given <> Ok (table_by (A := xnum) given (fun p => truth (negb (parent idx p)))) /\
  node_table "given-excl" [idx] given <> Ok (table_by (A := xnum) given (fun p => truth (only_parent given idx p))).
Proof.
  exists 0, 2. split; [lia|]. repeat split; intros E; apply (f_equal shown_table) in E; vm_compute in E; discriminate.
Qed.

Theorem C48_outcome_greater_refuted : exists idx outcomes : Z, 0 <= idx < outcomes /\
  node_table "outcome-greater" [idx; outcomes] 1 <> Ok (table_by_outcome (A := xnum) outcomes (fun k => truth (k >? idx))).
Proof. exists 1, 3. split; [lia|]. intros E. apply (f_equal shown_table) in E. vm_compute in E. discriminate. Qed.

(** With 64 parents or more the table is empty, without an error. *)
Theorem C49_many_parents_refuted : forall given, 64 <= given ->
  node_table (A := xnum) "bits" [] given = Ok [] /\ node_table (A := xnum) "count-true" [] given = Ok [] /\
  node_table (A := xnum) "count-is" [1] given = Ok [] /\ node_table (A := xnum) "given" [0] given = Ok [].
Proof.
  intros given H. unfold node_table, use_operator, reg_set_args, reg_table. cbn -[rows_of bits_table count_true_table count_table given_table].
  unfold bits_table, count_true_table, count_table, given_table, rows_of. replace ((given <? 0) || (64 <=? given)) with true by lia. repeat split; reflexivity.
Qed.
(** A negative number of outcomes of the parent can give rows without a probability. *)
Theorem C49_negative_outcomes_refuted :
  shown_table (node_table "outcome-is" [0; -9223372036854775806] 1) = Some [SFin 1; SFin 0; SFin 0; SFin 0].
Proof. vm_compute. reflexivity. Qed.

(** Two parsers running at the same time share the operator: the first one's table is built from
    the second one's argument. *)
Theorem C50_concurrent_refuted : exists calls tables,
  (* parser 1 runs SetArgs(0), Table(2); parser 2 runs SetArgs(1), Table(2) *)
  calls = [CallSetArgs "given" [0]; CallSetArgs "given" [1]; CallTable "given" 2; CallTable "given" 2] /\
  fst (run_calls (A := xnum) factors calls) = [tables; tables] /\
  tables <> node_table "given" [0] 2 /\ tables = node_table "given" [1] 2.
Proof.
  eexists _, (node_table "given" [1] 2). split; [reflexivity|]. split; [|split; [|reflexivity]].
  - reflexivity.
  - intros E. apply (f_equal shown_table) in E. vm_compute in E. discriminate.
Qed.

(** ** Cases that meet the hypotheses *)
Example C44_case : shown_table (node_table "not-cond" [] 2) =
  Some [SFin 1; SFin 0; SFin 1; SFin 0; SFin 1; SFin 0; SFin 0; SFin 1] /\
  In ("not-cond", fun a b => implb (negb a) b) binary_formulas /\
  shown_table (node_table "if-not-then" [] 1) = Some [SFin (1#2); SFin (1#2); SFin 1; SFin 0].
Proof. split; [vm_compute; reflexivity|]. split; [simpl; tauto|vm_compute; reflexivity]. Qed.
Example C45_case : allocatable (2 ^ 3) 2 /\ allocatable (2 ^ 2) (2 + 1) /\
  shown_table (node_table "count-less" [2] 2) = Some [SFin 0; SFin 1; SFin 1; SFin 0; SFin 1; SFin 0; SFin 1; SFin 0] /\
  shown_table (node_table "count-true" [] 2) = Some [SFin 0; SFin 0; SFin 1; SFin 0; SFin 1; SFin 0; SFin 0; SFin 1; SFin 0; SFin 1; SFin 0; SFin 0].
Proof. repeat split; vm_compute; try reflexivity; discriminate. Qed.
Example C46_case : allocatable (2 ^ 2) (2 ^ 2) /\
  shown_table (node_table "bits" [] 2) = Some [SFin 0; SFin 0; SFin 0; SFin 1; SFin 0; SFin 0; SFin 1; SFin 0; SFin 0; SFin 1; SFin 0; SFin 0; SFin 1; SFin 0; SFin 0; SFin 0].
Proof. split; vm_compute; [discriminate|reflexivity]. Qed.
Example C47_case : 0 <= 1 < 3 /\ 3 = 2 * 1 + 1 /\ allocatable (2 ^ 3) 2 /\
  shown_table (node_table "given-excl" [1] 2) = Some [SFin 0; SFin 1; SFin 1; SFin 0; SFin 0; SFin 1; SFin 0; SFin 1].
Proof. repeat split; vm_compute; try reflexivity; discriminate. Qed.
Example C48_case : allocatable 3 2 /\ (forall i, In i [0; 2] -> 0 <= i < 3) /\
  shown_table (node_table "outcome-either" [0; 2; 3] 1) = Some [SFin 1; SFin 0; SFin 0; SFin 1; SFin 1; SFin 0] /\
  shown_table (node_table "outcome-less" [2; 3] 1) = Some [SFin 1; SFin 0; SFin 1; SFin 0; SFin 0; SFin 1].
Proof.
  split; [vm_compute; discriminate|]. split; [intros i [<-|[<-|[]]]; lia|]. split; vm_compute; reflexivity.
Qed.
Example C49_case : exists t, In "outcome-is" (map fst (factors (A := xnum))) /\ (In "outcome-is" outcome_operators -> 0 <= last [1; 3] 0) /\
  (forall a, In a [1; 3] -> - 2 ^ 63 <= a < 2 ^ 63) /\ node_table (A := xnum) "outcome-is" [1; 3] 1 = Ok t /\ node_rows "outcome-is" [1; 3] 1 = 3 /\ node_columns "outcome-is" 1 = 2.
Proof.
  assert (R : 0 <= 1 < 3) by lia. assert (F : allocatable 3 2) by (vm_compute; discriminate).
  eexists. split; [simpl; tauto|]. split; [simpl; lia|]. split; [intros a [<-|[<-|[]]]; lia|].
  split; [exact (proj1 (C48_outcome (A := xnum) 1 3 R F))|]. split; reflexivity.
Qed.
Example C50_case : shown_table (fst (use_operator (snd (run_calls factors [CallSetArgs "given" [1]; CallTable "given" 2; CallSetArgs "not" [1]])) "given" [0] 2)) =
  Some [SFin 1; SFin 0; SFin 0; SFin 1; SFin 1; SFin 0; SFin 0; SFin 1].
Proof. vm_compute. reflexivity. Qed.

Print Assumptions C44_unary.
Print Assumptions C44_binary.
Print Assumptions C44_conditions.
Print Assumptions C44_wrong_parents.
Print Assumptions C44_arguments.
Print Assumptions C45_count.
Print Assumptions C45_count_true_false.
Print Assumptions C46_bits.
Print Assumptions C47_given_partial.
Print Assumptions C47_given_middle_partial.
Print Assumptions C47_index_out_of_range_refuted.
Print Assumptions C47_given_refuted.
Print Assumptions C48_outcome.
Print Assumptions C48_outcome_either.
Print Assumptions C48_outcome_less.
Print Assumptions C48_outcome_greater_partial.
Print Assumptions C48_outcome_greater_refuted.
Print Assumptions C48_parents.
Print Assumptions C49_valid_partial.
Print Assumptions C49_many_parents_refuted.
Print Assumptions C49_negative_outcomes_refuted.
Print Assumptions C50_sequential.
Print Assumptions C50_concurrent_refuted.
