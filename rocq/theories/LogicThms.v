(** The tables of all logic operators. *)
From Coq Require Import ZArith List Bool String Lia.
From Verif Require Import Num GoBase VarModel GoFacts LogicModel SpecLogic LogicFacts.
Import ListNotations.
Open Scope string_scope.
Open Scope list_scope.
Open Scope Z_scope.

Lemma pow_mono_le a b : 0 <= a <= b -> 2 ^ a <= 2 ^ b.
Proof. intros H. apply Z.pow_le_mono_r; lia. Qed.
Lemma fits_small given c : 0 <= given -> 1 <= c -> 2 ^ given * c <= 2 ^ 45 -> given <= 45 /\ rows_of given = 2 ^ given /\ 0 < 2 ^ given.
Proof.
  intros H Hc Hf. assert (given <= 45).
  { destruct (Z.le_gt_cases given 45); auto. assert (2 ^ 46 <= 2 ^ given) by (apply pow_mono_le; lia). change (2 ^ 46) with (2 * 2 ^ 45) in *. nia. }
  split; auto. split; [|lia]. unfold rows_of. replace ((given <? 0) || (64 <=? given)) with false by lia. auto.
Qed.
Lemma u64_small n : 0 <= n <= 2 ^ 45 -> u64 n = n.
Proof. intros H. unfold u64. apply Z.mod_small. assert (2 ^ 45 < 2 ^ 64) by reflexivity. lia. Qed.
Lemma wrap64_small n : 0 <= n <= 2 ^ 46 -> wrap64 n = n.
Proof. intros H. unfold wrap64. rewrite Z.mod_small; [lia|]. assert (2 ^ 46 + 2 ^ 63 < 2 ^ 64) by reflexivity. assert (0 < 2 ^ 63) by reflexivity. lia. Qed.

Section Tables.
Context {A : Type} {N : NumOps A}.

Lemma make_ok n : 0 <= n <= 2 ^ 45 -> make_floats n = Ok (repeat (n0 : A) (Z.to_nat n)).
Proof. intros H. unfold make_floats, smake. replace (2 ^ 45 <? n) with false by lia. replace (n <? 0) with false by lia. auto. Qed.

(** Operators over truth values with two outcomes *)
Lemma two_columns (b : Z -> bool) (row : list bool -> bool) given : 0 <= given -> 2 ^ given * 2 <= 2 ^ 45 ->
  (forall i, 0 <= i < 2 ^ given -> b i = row (config_of (Z.to_nat given) i)) ->
  (let! table := make_floats (u64 (rows_of given * 2)) in
   foldM (fun table i => set_row table i (b i)) table (zrange 0 (rows_of given))) = Ok (table_by (A := A) given (fun p => truth (row p))).
Proof.
  intros Hg Hf Hb. destruct (fits_small given 2 Hg ltac:(lia) Hf) as (H1 & H2 & H3). rewrite H2, u64_small, make_ok by lia. cbn [gbind].
  rewrite fill_truth by lia. f_equal. rewrite table_by_rows by auto. apply flat_map_ext_in. intros i Hi. apply zrange_In in Hi. rewrite Hb; auto.
Qed.

Theorem count_table_ok r v given : 0 <= given -> 2 ^ given * 2 <= 2 ^ 45 ->
  count_table r v given = Ok (table_by (A := A) given (fun p => truth (apply_rule r (count_true p) v))).
Proof.
  intros Hg Hf. unfold count_table. apply two_columns with (b := fun i => apply_rule r (given - ones_count i) v) (row := fun p => apply_rule r (count_true p) v); auto.
  intros i Hi. f_equal. rewrite <- (Z2Nat.id given) in Hi by auto. destruct (ones_config _ _ Hi) as [_ <-]. rewrite Z2Nat.id by auto. auto.
Qed.

Lemma parent_bit given idx i : 0 <= idx < given -> parent (given - 1 - idx) (config_of (Z.to_nat given) i) = negb (Z.testbit i idx).
Proof. intros H. unfold parent. rewrite config_nth by lia. do 2 f_equal. lia. Qed.

Lemma given_step idx (k : bool -> bool) t (l : list Z) : 0 <= idx ->
  foldM (fun (table : list A) i => let! isTrue := bit_clear i idx in set_row table i (k isTrue)) t l =
  foldM (fun table i => set_row table i (k (negb (Z.testbit i idx)))) t l.
Proof. intros H. apply foldM_ext. intros s i _. unfold bit_clear. replace (idx <? 0) with false by lia. reflexivity. Qed.

(** The parent tested by the operators given, given-not and given-excl with argument [idx]. *)
Definition tested given idx (p : list bool) : bool := if idx <? given then parent (given - 1 - idx) p else true.

Lemma tested_bit given idx i : 0 <= idx -> 0 <= given -> 0 <= i < 2 ^ given -> tested given idx (config_of (Z.to_nat given) i) = negb (Z.testbit i idx).
Proof.
  intros H1 H2 Hi. unfold tested. destruct (Z.ltb_spec idx given); [apply parent_bit; lia|]. assert (2 ^ given <= 2 ^ idx) by (apply pow_mono_le; lia).
  rewrite testbit_high by lia. reflexivity.
Qed.

Theorem given_table_ok idx given : 0 <= idx -> 0 <= given -> 2 ^ given * 2 <= 2 ^ 45 ->
  given_table idx given = Ok (table_by (A := A) given (fun p => truth (tested given idx p))).
Proof.
  intros Hi Hg Hf. unfold given_table. rewrite <- (two_columns (fun i => negb (Z.testbit i idx)) (tested given idx) given Hg Hf).
  - destruct (make_floats _); cbn [gbind]; auto. apply (given_step idx (fun b => b)); auto.
  - intros i H. symmetry. apply tested_bit; auto.
Qed.

Theorem given_not_table_ok idx given : 0 <= idx -> 0 <= given -> 2 ^ given * 2 <= 2 ^ 45 ->
  given_not_table idx given = Ok (table_by (A := A) given (fun p => truth (negb (tested given idx p)))).
Proof.
  intros Hi Hg Hf. unfold given_not_table. rewrite <- (two_columns (fun i => negb (negb (Z.testbit i idx))) (fun p => negb (tested given idx p)) given Hg Hf).
  - destruct (make_floats _); cbn [gbind]; auto. apply (given_step idx negb); auto.
  - intros i H. f_equal. symmetry. apply tested_bit; auto.
Qed.


Theorem given_excl_table_ok idx given : 0 <= idx -> 0 <= given -> 2 ^ given * 2 <= 2 ^ 45 ->
  given_excl_table idx given = Ok (table_by (A := A) given (fun p => truth (only_parent given (given - 1 - idx) p))).
Proof.
  intros Hi Hg Hf. unfold given_excl_table.
  rewrite <- (two_columns (fun i => negb (Z.testbit i idx) && negb (existsb (fun j => negb (j =? idx) && negb (Z.testbit i j)) (zrange 0 given)))
     (only_parent given (given - 1 - idx)) given Hg Hf).
  - destruct (make_floats _) as [t| |]; cbn [gbind]; auto. apply foldM_ext. intros s i _. unfold bit_clear. replace (idx <? 0) with false by lia. cbn [gbind].
    destruct (Z.testbit i idx); reflexivity.
  - intros i H. apply eq_true_iff_eq. unfold only_parent. rewrite andb_true_iff, !negb_true_iff, forallb_forall.
    assert (Hex : existsb (fun j => negb (j =? idx) && negb (Z.testbit i j)) (zrange 0 given) = false <-> forall j, 0 <= j < given -> j <> idx -> Z.testbit i j = true).
    { rewrite <- not_true_iff_false, existsb_exists. split.
      - intros Hn j Hj Hne. destruct (Z.testbit i j) eqn:E; auto. exfalso. apply Hn. exists j. rewrite zrange_In, E. split; [lia|]. replace (j =? idx) with false by lia. auto.
      - intros Ha (j & Hj & E). apply zrange_In in Hj. apply andb_true_iff in E. destruct E as [E1 E2]. rewrite Ha in E2 by lia. discriminate. }
    rewrite Hex. split.
    + intros [Hb Ha] j Hj. apply zrange_In in Hj. replace j with (given - 1 - (given - 1 - j)) at 1 by lia. rewrite parent_bit by lia.
      destruct (Z.eq_dec (given - 1 - j) idx) as [E|E].
      * rewrite E, Hb. replace (j =? given - 1 - idx) with true by lia. auto.
      * rewrite Ha by lia. replace (j =? given - 1 - idx) with false by lia. auto.
    + intros Ha.
      assert (Hp : forall j, 0 <= j < given -> negb (Z.testbit i j) = (j =? idx)).
      { intros j Hj. rewrite <- (parent_bit given j i) by lia. specialize (Ha (given - 1 - j)). rewrite zrange_In in Ha. specialize (Ha ltac:(lia)). apply eqb_prop in Ha. rewrite Ha.
        apply eq_true_iff_eq. rewrite !Z.eqb_eq. lia. }
      split.
      * destruct (Z.lt_ge_cases idx given).
        -- specialize (Hp idx ltac:(lia)). rewrite Z.eqb_refl in Hp. apply negb_true_iff. auto.
        -- (* idx beyond all parents: the code treats it as true *) assert (2 ^ given <= 2 ^ idx) by (apply pow_mono_le; lia). apply testbit_high; lia.
      * intros j Hj Hne. specialize (Hp j Hj). replace (j =? idx) with false in Hp by lia. apply negb_false_iff. auto.
Qed.

(** Operators with more outcomes *)
Theorem count_true_table_ok given : 0 <= given -> 2 ^ given * (given + 1) <= 2 ^ 45 ->
  count_true_table given = Ok (table_by (A := A) given (fun p => certain (given + 1) (count_true p))).
Proof.
  intros Hg Hf. destruct (fits_small given (given + 1) Hg ltac:(lia) Hf) as (H1 & H2 & H3). unfold count_true_table.
  assert (2 ^ given <= 2 ^ 45) by (apply pow_mono_le; lia). assert (2 ^ 45 < 2 ^ 46) by reflexivity.
  rewrite H2. rewrite (wrap64_small (2 ^ given)) by lia. rewrite wrap64_small, make_ok by nia. cbn [gbind].
  assert (Hc : forall i, 0 <= i < 2 ^ given -> given - ones_count i = count_true (config_of (Z.to_nat given) i) /\ 0 <= given - ones_count i < given + 1).
  { intros i Hi. rewrite <- (Z2Nat.id given) in Hi by auto. destruct (ones_config _ _ Hi) as [E1 E2]. rewrite Z2Nat.id in E2 by auto. rewrite E2. split; auto.
    rewrite <- E2, E1. unfold count_false, zlen. pose proof (config_length (Z.to_nat given) i) as L.
    assert (List.length (filter negb (config_of (Z.to_nat given) i)) <= Z.to_nat given)%nat; [|lia]. rewrite <- L at 2. clear. induction (config_of _ _) as [|x l IH]; simpl; auto. destruct (negb x); simpl; lia. }
  rewrite fill_certain; try lia. f_equal. rewrite table_by_rows by auto. apply flat_map_ext_in. intros i Hi. apply zrange_In in Hi. f_equal. apply Hc; auto.
Qed.

Theorem count_false_table_ok given : 0 <= given -> 2 ^ given * (given + 1) <= 2 ^ 45 ->
  count_false_table given = Ok (table_by (A := A) given (fun p => certain (given + 1) (count_false p))).
Proof.
  intros Hg Hf. destruct (fits_small given (given + 1) Hg ltac:(lia) Hf) as (H1 & H2 & H3). unfold count_false_table.
  assert (2 ^ given <= 2 ^ 45) by (apply pow_mono_le; lia). assert (2 ^ 45 < 2 ^ 46) by reflexivity.
  rewrite H2. rewrite (wrap64_small (2 ^ given)) by lia. rewrite wrap64_small, make_ok by nia. cbn [gbind].
  assert (Hc : forall i, 0 <= i < 2 ^ given -> ones_count i = count_false (config_of (Z.to_nat given) i) /\ 0 <= ones_count i < given + 1).
  { intros i Hi. rewrite <- (Z2Nat.id given) in Hi by auto. destruct (ones_config _ _ Hi) as [E1 E2]. split; auto.
    rewrite E1. unfold count_false, zlen. pose proof (config_length (Z.to_nat given) i) as L.
    assert (List.length (filter negb (config_of (Z.to_nat given) i)) <= Z.to_nat given)%nat; [|lia]. rewrite <- L at 2. clear. induction (config_of _ _) as [|x l IH]; simpl; auto. destruct (negb x); simpl; lia. }
  rewrite fill_certain; try lia. f_equal. rewrite table_by_rows by auto. apply flat_map_ext_in. intros i Hi. apply zrange_In in Hi. f_equal. apply Hc; auto.
Qed.

Theorem bits_table_ok given : 0 <= given -> 2 ^ given * 2 ^ given <= 2 ^ 45 ->
  bits_table given = Ok (table_by (A := A) given (fun p => certain (2 ^ given) (bits_value p))).
Proof.
  intros Hg Hf. destruct (fits_small given (2 ^ given) Hg ltac:(lia) Hf) as (H1 & H2 & H3). unfold bits_table.
  assert (2 ^ given <= 2 ^ 45) by (apply pow_mono_le; lia). assert (2 ^ 45 < 2 ^ 46) by reflexivity.
  rewrite H2. rewrite u64_small, wrap64_small, make_ok, u64_small by nia. cbn [gbind].
  rewrite (fill_certain (fun i => 2 ^ given - 1 - i)); try lia. f_equal. rewrite table_by_rows by auto. apply flat_map_ext_in. intros i Hi. apply zrange_In in Hi. f_equal.
  rewrite bits_config by (rewrite Z2Nat.id; lia). rewrite Z2Nat.id by auto. auto.
Qed.

(** Connectives *)
Theorem bool_table_ok (l : list bool) given : 0 <= given -> zlen l = 2 ^ given -> 2 ^ given * 2 <= 2 ^ 45 ->
  bool_table l given = Ok (flat_map (truth (A := A)) l).
Proof.
  intros Hg Hl Hf. destruct (fits_small given 2 Hg ltac:(lia) Hf) as (H1 & H2 & H3). unfold bool_table. replace (given <? 0) with false by lia.
  assert (2 ^ 45 < 2 ^ 46) by reflexivity. rewrite H2, wrap64_small, Hl, Z.eqb_refl by lia. cbn [negb]. rewrite make_ok by lia. cbn [gbind].
  rewrite <- Hl. pose proof (fill_truth (A := A) (fun i => nth (Z.to_nat i) l false) (zlen l) ltac:(unfold zlen; lia)) as F.
  assert (Ez : zrange 0 (zlen l) = map Z.of_nat (seq 0 (List.length l))). { unfold zrange, zlen. rewrite Z.sub_0_r, Nat2Z.id. apply map_ext. intros. lia. }
  assert (Ec : combine (zrange 0 (zlen l)) l = map (fun i => (i, nth (Z.to_nat i) l false)) (zrange 0 (zlen l))).
  { rewrite Ez, map_map. clear. assert (G : forall s l', combine (map Z.of_nat (seq s (List.length l'))) l' = map (fun x => (Z.of_nat x, nth (x - s) l' false)) (seq s (List.length l'))).
    { intros s l'. revert s. induction l' as [|b l' IH]; intros s; simpl; auto. f_equal; [rewrite Nat.sub_diag; auto|]. rewrite IH. apply map_ext_in. intros x Hx. apply in_seq in Hx. f_equal.
      replace (x - s)%nat with (S (x - S s)) by lia. auto. }
    rewrite G. apply map_ext. intros x. rewrite Nat.sub_0_r, Nat2Z.id. auto. }
  rewrite Ec. clear Ec. transitivity (foldM (fun t i => set_row t i (nth (Z.to_nat i) l false)) (repeat (n0 : A) (Z.to_nat (zlen l * 2))) (zrange 0 (zlen l))).
  - clear F Ez. generalize (repeat (n0 : A) (Z.to_nat (zlen l * 2))) as t. induction (zrange 0 (zlen l)) as [|i L IH]; intros t; cbn [map foldM]; auto. destruct (set_row t i _); cbn [gbind]; auto.
  - rewrite F. f_equal. rewrite Ez, flat_map_map. clear.
    assert (G : forall s l', flat_map (fun x => truth (A := A) (nth (x - s) l' false)) (seq s (List.length l')) = flat_map truth l').
    { intros s l'. revert s. induction l' as [|b l' IH]; intros s; simpl; auto. rewrite Nat.sub_diag. f_equal. rewrite <- (IH (S s)). apply flat_map_ext_in. intros x Hx. apply in_seq in Hx.
      replace (x - s)%nat with (S (x - S s)) by lia. auto. }
    rewrite <- (G 0%nat l). apply flat_map_ext_in. intros x _. rewrite Nat.sub_0_r, Nat2Z.id. auto.
Qed.

(** Outcomes of one parent *)
Lemma start_ok len : 0 <= len -> len * 2 <= 2 ^ 45 -> outcome_start len 1 = Ok (flat_map (fun _ => repeat (n0 : A) 2) (zrange 0 len)).
Proof.
  intros H Hf. unfold outcome_start. cbn [Z.eqb negb]. change (negb (1 =? 1)) with false. cbv iota. assert (2 ^ 45 < 2 ^ 46) by reflexivity.
  rewrite wrap64_small, make_ok, repeat_blocks by lia. reflexivity.
Qed.

Lemma column_ok (g : Z -> list A) off len lo hi : (forall k, List.length (g k) = 2%nat) -> 0 <= off < 2 -> 0 <= lo -> hi <= len ->
  fill_column off (flat_map g (zrange 0 len)) lo hi =
  Ok (flat_map (fun k => if (lo <=? k) && (k <? hi) then upd_nth (g k) (Z.to_nat off) n1 else g k) (zrange 0 len)).
Proof.
  intros Hg Ho Hlo Hhi. unfold fill_column. rewrite fill_blocks; auto.
  - f_equal. apply flat_map_ext_in. intros k _. rewrite existsb_zrange. auto.
  - intros i Hi. apply zrange_In in Hi. lia.
Qed.

Lemma pair_set (g : Z -> list A) len idx a b : (forall k, List.length (g k) = 2%nat) -> 0 <= idx < len -> len * 2 <= 2 ^ 45 ->
  (let! t := sset (flat_map g (zrange 0 len)) (wrap64 (idx * 2)) a in sset t (wrap64 (idx * 2 + 1)) b) =
  Ok (flat_map (fun k => if k =? idx then [a; b] else g k) (zrange 0 len)).
Proof.
  intros Hg Hi Hf. assert (2 ^ 45 < 2 ^ 46) by reflexivity. rewrite !wrap64_small by lia.
  replace (idx * 2) with (idx * 2 + 0) at 1 by lia. rewrite block_set by (auto; lia). cbn [gbind]. rewrite block_set.
  - f_equal. apply flat_map_ext_in. intros k _. destruct (k =? idx); auto. specialize (Hg k). destruct (g k) as [|x [|y [|]]]; try discriminate. reflexivity.
  - intros k. destruct (k =? idx); [rewrite upd_nth_length|]; auto.
  - auto.
  - lia.
Qed.

Theorem outcome_is_ok idx len : 0 <= idx < len -> len * 2 <= 2 ^ 45 -> outcome_is_table idx len 1 = Ok (table_by_outcome (A := A) len (fun k => truth (k =? idx))).
Proof.
  intros Hi Hf. unfold outcome_is_table. rewrite start_ok by lia. cbn [gbind]. rewrite column_ok by (auto; lia). cbn [gbind].
  rewrite pair_set; auto. 2:{ intros k. destruct (_ && _); auto. }
  f_equal. apply flat_map_ext_in. intros k Hk. apply zrange_In in Hk. replace ((0 <=? k) && (k <? len)) with true by lia. destruct (k =? idx); reflexivity.
Qed.
Theorem outcome_is_not_ok idx len : 0 <= idx < len -> len * 2 <= 2 ^ 45 -> outcome_is_not_table idx len 1 = Ok (table_by_outcome (A := A) len (fun k => truth (negb (k =? idx)))).
Proof.
  intros Hi Hf. unfold outcome_is_not_table. rewrite start_ok by lia. cbn [gbind]. rewrite column_ok by (auto; lia). cbn [gbind].
  rewrite pair_set; auto. 2:{ intros k. destruct (_ && _); auto. }
  f_equal. apply flat_map_ext_in. intros k Hk. apply zrange_In in Hk. replace ((0 <=? k) && (k <? len)) with true by lia. destruct (k =? idx); reflexivity.
Qed.
Theorem outcome_either_ok l len : (forall i, In i l -> 0 <= i < len) -> 0 <= len -> len * 2 <= 2 ^ 45 ->
  outcome_either_table l len 1 = Ok (table_by_outcome (A := A) len (fun k => truth (existsb (Z.eqb k) l))).
Proof.
  intros Hi Hl Hf. unfold outcome_either_table. rewrite start_ok by lia. cbn [gbind]. rewrite column_ok by (auto; lia). cbn [gbind].
  assert (G : forall L (done : Z -> bool), incl L l -> foldM (fun table idx => let! table := sset table (wrap64 (idx * 2)) n1 in sset table (wrap64 (idx * 2 + 1)) n0)
     (flat_map (fun k => truth (A := A) (done k)) (zrange 0 len)) L = Ok (flat_map (fun k => truth (done k || existsb (Z.eqb k) L)) (zrange 0 len))).
  { induction L as [|i L IH]; intros done Hin; cbn [foldM].
    - f_equal. apply flat_map_ext_in. intros k _. simpl. rewrite orb_false_r. auto.
    - rewrite pair_set; auto; [|intros k; destruct (done k); auto|apply Hi, Hin; simpl; auto]. cbn [gbind].
      replace (flat_map (fun k => if k =? i then [n1; n0] else truth (A := A) (done k)) (zrange 0 len)) with (flat_map (fun k => truth (A := A) ((k =? i) || done k)) (zrange 0 len)).
      + rewrite IH by (intros x Hx; apply Hin; simpl; auto). f_equal. apply flat_map_ext_in. intros k _. simpl. f_equal. destruct (k =? i), (done k); auto.
      + apply flat_map_ext_in. intros k _. destruct (k =? i); auto. }
  rewrite (flat_map_ext_in _ (fun k => truth (A := A) false)); [apply (G l (fun _ => false)); apply incl_refl|].
  intros k Hk. apply zrange_In in Hk. replace ((0 <=? k) && (k <? len)) with true by lia. reflexivity.
Qed.
Theorem outcome_less_ok idx len : 0 <= idx <= len -> len * 2 <= 2 ^ 45 -> outcome_less_table idx len 1 = Ok (table_by_outcome (A := A) len (fun k => truth (k <? idx))).
Proof.
  intros Hi Hf. unfold outcome_less_table. rewrite start_ok by lia. cbn [gbind]. rewrite column_ok by (auto; lia). cbn [gbind].
  rewrite column_ok; try lia. 2:{ intros k. destruct (_ && _); auto. }
  f_equal. apply flat_map_ext_in. intros k Hk. apply zrange_In in Hk. destruct (Z.ltb_spec k idx).
  - replace ((0 <=? k) && true) with true by lia. replace ((idx <=? k) && (k <? len)) with false by lia. reflexivity.
  - rewrite andb_false_r. replace ((idx <=? k) && (k <? len)) with true by lia. reflexivity.
Qed.
Theorem outcome_greater_ok idx len : 0 <= idx <= len -> len * 2 <= 2 ^ 45 -> outcome_greater_table idx len 1 = Ok (table_by_outcome (A := A) len (fun k => truth (idx <=? k))).
Proof.
  intros Hi Hf. unfold outcome_greater_table. rewrite start_ok by lia. cbn [gbind]. rewrite column_ok by (auto; lia). cbn [gbind].
  rewrite column_ok; try lia. 2:{ intros k. destruct (_ && _); auto. }
  f_equal. apply flat_map_ext_in. intros k Hk. apply zrange_In in Hk. destruct (Z.ltb_spec k idx).
  - replace ((0 <=? k) && true) with true by lia. replace ((idx <=? k) && (k <? len)) with false by lia. replace (idx <=? k) with false by lia. reflexivity.
  - rewrite andb_false_r. replace ((idx <=? k) && (k <? len)) with true by lia. replace (idx <=? k) with true by lia. reflexivity.
Qed.
End Tables.
