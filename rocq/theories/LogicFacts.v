(** Proofs about the logic operators. *)
From Coq Require Import ZArith List Bool String Lia.
From Verif Require Import Num GoBase VarModel GoFacts LogicModel SpecLogic.
Import ListNotations.
Open Scope string_scope.
Open Scope list_scope.
Open Scope Z_scope.

(** ** Ranges *)
Lemma zrange_empty lo hi : hi <= lo -> zrange lo hi = [].
Proof. intros H. unfold zrange. replace (Z.to_nat (hi - lo)) with 0%nat by lia. reflexivity. Qed.
Lemma zrange_cons lo hi : lo < hi -> zrange lo hi = lo :: zrange (lo + 1) hi.
Proof.
  intros H. unfold zrange. replace (Z.to_nat (hi - lo)) with (S (Z.to_nat (hi - (lo + 1)))) by lia. cbn [seq map]. f_equal; [lia|].
  rewrite <- seq_shift, map_map. apply map_ext. intros k. lia.
Qed.
Lemma zrange_app lo mid hi : lo <= mid <= hi -> zrange lo hi = zrange lo mid ++ zrange mid hi.
Proof.
  intros H. remember (Z.to_nat (mid - lo)) as k eqn:E. revert lo H E. induction k as [|k IH]; intros lo H E.
  - replace lo with mid by lia. rewrite (zrange_empty mid mid) by lia. reflexivity.
  - rewrite (zrange_cons lo hi), (zrange_cons lo mid) by lia. simpl. f_equal. apply IH; lia.
Qed.
Lemma zrange_In lo hi i : In i (zrange lo hi) <-> lo <= i < hi.
Proof.
  unfold zrange. rewrite in_map_iff. split.
  - intros (k & <- & H). apply in_seq in H. lia.
  - intros H. exists (Z.to_nat (i - lo)). split; [lia|]. apply in_seq. lia.
Qed.
Lemma zrange_length lo hi : List.length (zrange lo hi) = Z.to_nat (hi - lo).
Proof. unfold zrange. rewrite map_length, seq_length. auto. Qed.
Lemma zrange_shift lo hi d : zrange (lo + d) (hi + d) = map (fun i => i + d) (zrange lo hi).
Proof. unfold zrange. rewrite map_map. replace (hi + d - (lo + d)) with (hi - lo) by lia. apply map_ext. intros. lia. Qed.

Lemma flat_map_ext_in {X Y} (f g : X -> list Y) l : (forall x, In x l -> f x = g x) -> flat_map f l = flat_map g l.
Proof. induction l as [|x l IH]; simpl; intros H; auto. rewrite H by auto. f_equal. auto. Qed.
Lemma foldM_ext {S X} (f g : S -> X -> gores S) l : (forall s x, In x l -> f s x = g s x) -> forall s, foldM f s l = foldM g s l.
Proof. induction l as [|x l IH]; intros H s; simpl; auto. rewrite H by (simpl; auto). destruct (g s x); simpl; auto. apply IH. intros. apply H. simpl; auto. Qed.
Lemma flat_map_map {X Y Z} (f : X -> Y) (g : Y -> list Z) l : flat_map g (map f l) = flat_map (fun x => g (f x)) l.
Proof. induction l; simpl; auto. f_equal. auto. Qed.

(** ** Configurations and bits *)
Lemma testbit_high i k : 0 <= i < 2 ^ k -> 0 <= k -> Z.testbit i k = false.
Proof.
  intros H Hk. destruct (Z.eq_dec i 0) as [->|Hi]; [apply Z.bits_0|]. apply Z.bits_above_log2; [lia|].
  apply Z.log2_lt_pow2; lia.
Qed.

(** The truth values in row [i] of a table with [n] parents. *)
Fixpoint config_of (n : nat) (i : Z) : list bool :=
  match n with O => [] | S k => negb (Z.testbit i (Z.of_nat k)) :: config_of k i end.

Lemma config_high k : forall n i, (n <= k)%nat -> config_of n (i + 2 ^ Z.of_nat k) = config_of n i.
Proof.
  induction n as [|n IH]; intros i H; simpl; auto. rewrite IH by lia. f_equal. f_equal.
  rewrite <- (Z.mul_1_l (2 ^ Z.of_nat k)). rewrite <- Z.shiftl_mul_pow2 by lia.
  destruct (Z.testbit (i + Z.shiftl 1 (Z.of_nat k)) (Z.of_nat n)) eqn:E.
  - rewrite <- (Z.mod_pow2_bits_low _ (Z.of_nat k)) in E by lia. rewrite Z.shiftl_mul_pow2, Z.mod_add in E by lia. rewrite Z.mod_pow2_bits_low in E by lia. auto.
  - rewrite <- (Z.mod_pow2_bits_low _ (Z.of_nat k)) in E by lia. rewrite Z.shiftl_mul_pow2, Z.mod_add in E by lia. rewrite Z.mod_pow2_bits_low in E by lia. auto.
Qed.

Lemma testbit_top i k : 0 <= i < 2 ^ k -> 0 <= k -> Z.testbit (i + 2 ^ k) k = true.
Proof.
  intros H Hk.
  apply Z.testbit_true; auto. rewrite <- (Z.mul_1_l (2 ^ k)) at 1. rewrite Z.div_add by lia. rewrite Z.div_small by lia. reflexivity.
Qed.

Lemma configurations_rows n : configurations n = map (config_of n) (zrange 0 (2 ^ Z.of_nat n)).
Proof.
  induction n as [|n IH]; [reflexivity|]. cbn [configurations]. rewrite IH.
  rewrite Nat2Z.inj_succ, Z.pow_succ_r by lia. rewrite (zrange_app 0 (2 ^ Z.of_nat n) (2 * 2 ^ Z.of_nat n)) by lia.
  replace (zrange (2 ^ Z.of_nat n) (2 * 2 ^ Z.of_nat n)) with (map (fun i => i + 2 ^ Z.of_nat n) (zrange 0 (2 ^ Z.of_nat n)))
    by (rewrite <- zrange_shift; f_equal; lia).
  rewrite map_app, !map_map. f_equal.
  - apply map_ext_in. intros i Hi. apply zrange_In in Hi. cbn [config_of]. rewrite testbit_high by lia. reflexivity.
  - apply map_ext_in. intros i Hi. apply zrange_In in Hi. cbn [config_of]. rewrite testbit_top by lia. cbn [negb]. rewrite config_high by lia. reflexivity.
Qed.

(** ** Counting bits *)
Lemma ones_double i : 0 <= i -> ones_count (2 * i) = ones_count i.
Proof. intros H. destruct i; try lia; reflexivity. Qed.
Lemma ones_double1 i : 0 <= i -> ones_count (2 * i + 1) = 1 + ones_count i.
Proof. intros H. destruct i; try lia; reflexivity. Qed.

Lemma config_double n : forall i (b : bool), 0 <= i -> config_of (S n) (2 * i + if b then 1 else 0) = config_of n i ++ [negb b].
Proof.
  induction n as [|n IH]; intros i b Hi.
  - cbn [config_of app]. change (Z.of_nat 0) with 0. destruct b; [rewrite Z.testbit_odd_0|rewrite Z.add_0_r, Z.testbit_even_0]; reflexivity.
  - cbn [config_of] in *. rewrite IH by auto. cbn [app]. f_equal. f_equal. rewrite Nat2Z.inj_succ.
    destruct b; [rewrite Z.testbit_odd_succ by lia|rewrite Z.add_0_r, Z.testbit_even_succ by lia]; reflexivity.
Qed.

Lemma half_split i : exists j (b : bool), i = 2 * j + (if b then 1 else 0).
Proof.
  exists (i / 2), (Z.odd i). pose proof (Z.div_mod i 2 ltac:(lia)) as H. rewrite Zmod_odd in H. destruct (Z.odd i); lia.
Qed.

Lemma ones_config n : forall i, 0 <= i < 2 ^ Z.of_nat n -> ones_count i = count_false (config_of n i) /\ Z.of_nat n - ones_count i = count_true (config_of n i).
Proof.
  induction n as [|n IH]; intros i H.
  - simpl in H. assert (i = 0) by lia. subst i. split; reflexivity.
  - destruct (half_split i) as (j & b & ->). rewrite Nat2Z.inj_succ, Z.pow_succ_r in H by lia.
    assert (Hj : 0 <= j < 2 ^ Z.of_nat n) by (destruct b; lia). destruct (IH j Hj) as [H1 H2]. rewrite config_double by lia.
    unfold count_false, count_true in *. rewrite !filter_app. unfold zlen in *. rewrite !app_length, !Nat2Z.inj_add, Nat2Z.inj_succ.
    destruct b; [rewrite ones_double1 by lia|rewrite Z.add_0_r, ones_double by lia]; cbn [negb filter List.length]; lia.
Qed.

Lemma bits_config n : forall i, 0 <= i < 2 ^ Z.of_nat n -> bits_value (config_of n i) = 2 ^ Z.of_nat n - 1 - i.
Proof.
  induction n as [|n IH]; intros i H.
  - simpl in *. unfold bits_value. simpl. lia.
  - destruct (half_split i) as (j & b & ->). rewrite Nat2Z.inj_succ, Z.pow_succ_r in * by lia.
    assert (Hj : 0 <= j < 2 ^ Z.of_nat n) by (destruct b; lia). specialize (IH j Hj). rewrite config_double by lia.
    unfold bits_value in *. rewrite fold_left_app, IH. cbn [fold_left]. destruct b; cbn [negb]; lia.
Qed.

Lemma config_length n i : List.length (config_of n i) = n.
Proof. induction n; simpl; auto. Qed.

Lemma config_nth n : forall k i, (k < n)%nat -> nth k (config_of n i) false = negb (Z.testbit i (Z.of_nat (n - 1 - k))).
Proof.
  induction n as [|n IH]; intros k i H; [lia|]. cbn [config_of]. destruct k as [|k]; cbn [nth].
  - do 2 f_equal. lia.
  - rewrite IH by lia. do 2 f_equal. lia.
Qed.

(** ** Tables as blocks of rows *)
Section Blocks.
Context {A : Type} {N : NumOps A}.

Lemma flat_map_length_const {X} (g : X -> list A) c l : (forall x, In x l -> List.length (g x) = c) -> List.length (flat_map g l) = (List.length l * c)%nat.
Proof. induction l as [|x l IH]; simpl; intros H; auto. rewrite app_length, H, IH by auto. lia. Qed.

Lemma upd_nth_app2 (l1 l2 : list A) k x : upd_nth (l1 ++ l2) (List.length l1 + k) x = l1 ++ upd_nth l2 k x.
Proof. induction l1; simpl; auto. f_equal. auto. Qed.
Lemma upd_nth_app1 (l1 l2 : list A) k x : (k < List.length l1)%nat -> upd_nth (l1 ++ l2) k x = upd_nth l1 k x ++ l2.
Proof. revert k. induction l1 as [|y l1 IH]; intros [|k] H; simpl in *; try lia; auto. f_equal. apply IH. lia. Qed.
Lemma upd_nth_twice (l : list A) k x : upd_nth (upd_nth l k x) k x = upd_nth l k x.
Proof. revert k. induction l as [|y l IH]; intros [|k]; simpl; auto. f_equal. auto. Qed.
Lemma upd_nth_length (l : list A) k x : List.length (upd_nth l k x) = List.length l.
Proof. revert k. induction l as [|y l IH]; intros [|k]; simpl; auto. Qed.

Lemma block_set (g : Z -> list A) len c i p x : (forall k, List.length (g k) = Z.to_nat c) -> 0 <= i < len -> 0 <= p < c ->
  sset (flat_map g (zrange 0 len)) (i * c + p) x = Ok (flat_map (fun k => if k =? i then upd_nth (g k) (Z.to_nat p) x else g k) (zrange 0 len)).
Proof.
  intros Hg Hi Hp. rewrite (zrange_app 0 i len), (zrange_cons i len), !flat_map_app by lia. cbn [flat_map].
  assert (L1 : List.length (flat_map g (zrange 0 i)) = Z.to_nat (i * c)).
  { rewrite flat_map_length_const with (c := Z.to_nat c) by auto. rewrite zrange_length, Z.sub_0_r, <- Z2Nat.inj_mul by lia. auto. }
  replace (i * c + p) with (Z.of_nat (List.length (flat_map g (zrange 0 i)) + Z.to_nat p)) by (rewrite L1; nia).
  rewrite sset_ok. 2:{ rewrite !app_length, Hg. lia. }
  rewrite upd_nth_app2, upd_nth_app1 by (rewrite Hg; lia). rewrite Z.eqb_refl. f_equal. f_equal; [|f_equal].
  - apply flat_map_ext_in. intros k Hk. apply zrange_In in Hk. replace (k =? i) with false by lia. auto.
  - apply flat_map_ext_in. intros k Hk. apply zrange_In in Hk. replace (k =? i) with false by lia. auto.
Qed.

Lemma block_range (g : Z -> list A) len c i p x t : (forall k, List.length (g k) = Z.to_nat c) -> 0 <= len -> 0 <= p < c ->
  sset (flat_map g (zrange 0 len)) (i * c + p) x = Ok t -> 0 <= i < len.
Proof.
  intros Hg Hl Hp H. unfold sset in H. destruct (_ || _) eqn:E; [discriminate|]. apply orb_false_iff in E. destruct E as [E1 E2].
  unfold zlen in E2. rewrite flat_map_length_const with (c := Z.to_nat c) in E2 by auto. rewrite zrange_length in E2. nia.
Qed.

(** A loop that sets one entry in each of some rows. *)
Lemma fill_blocks p c x L : forall (g : Z -> list A) len, (forall k, List.length (g k) = Z.to_nat c) ->
  (forall i, In i L -> 0 <= i < len /\ 0 <= p i < c) ->
  foldM (fun t i => sset t (i * c + p i) x) (flat_map g (zrange 0 len)) L =
  Ok (flat_map (fun k => if existsb (Z.eqb k) L then upd_nth (g k) (Z.to_nat (p k)) x else g k) (zrange 0 len)).
Proof.
  induction L as [|i L IH]; intros g len Hg H; cbn [foldM].
  - f_equal.
  - destruct (H i (or_introl eq_refl)) as [Hi Hp]. rewrite block_set by auto. cbn [gbind]. rewrite IH.
    + f_equal. apply flat_map_ext_in. intros k _. cbn [existsb]. destruct (Z.eqb_spec k i) as [->|E]; cbn [orb]; auto.
      rewrite upd_nth_twice. destruct (existsb (Z.eqb i) L); auto.
    + intros k. destruct (k =? i); [rewrite upd_nth_length|]; auto.
    + intros j Hj. apply H. simpl; auto.
Qed.

Lemma existsb_zrange k lo hi : existsb (Z.eqb k) (zrange lo hi) = (lo <=? k) && (k <? hi).
Proof.
  apply eq_true_iff_eq. rewrite existsb_exists, andb_true_iff, Z.leb_le, Z.ltb_lt. split.
  - intros (i & Hi & E). apply Z.eqb_eq in E. subst i. apply zrange_In in Hi. lia.
  - intros H. exists k. split; [apply zrange_In; lia|apply Z.eqb_refl].
Qed.

Lemma repeat_blocks (x : A) len c : 0 <= len -> 0 <= c -> repeat x (Z.to_nat (len * c)) = flat_map (fun _ => repeat x (Z.to_nat c)) (zrange 0 len).
Proof.
  intros Hl Hc. rewrite Z2Nat.inj_mul by lia. unfold zrange. rewrite flat_map_map, Z.sub_0_r.
  generalize (Z.to_nat len) as n. intros n. generalize 0%nat as s. induction n as [|n IH]; intros s; simpl; auto. rewrite repeat_app, (IH (S s)). auto.
Qed.

Lemma zeros_certain c k : 0 <= k < c -> upd_nth (repeat (n0 : A) (Z.to_nat c)) (Z.to_nat k) n1 = certain c k.
Proof.
  intros H. apply nth_error_ext. intros j. unfold certain. rewrite nth_error_map.
  assert (Hz : nth_error (zrange 0 c) j = if (j <? Z.to_nat c)%nat then Some (Z.of_nat j) else None).
  { unfold zrange. rewrite nth_error_map, Z.sub_0_r. destruct (Nat.ltb_spec j (Z.to_nat c)).
    - rewrite nth_error_nth' with (d := 0%nat) by (rewrite seq_length; auto). rewrite seq_nth by auto. reflexivity.
    - rewrite (proj2 (nth_error_None _ _)) by (rewrite seq_length; auto). reflexivity. }
  rewrite Hz. destruct (Nat.ltb_spec j (Z.to_nat c)) as [Hj|Hj]; cbn [option_map].
  - destruct (Nat.eq_dec j (Z.to_nat k)) as [->|Hne].
    + rewrite upd_nth_same by (rewrite repeat_length; lia). replace (Z.of_nat (Z.to_nat k) =? k) with true by lia. auto.
    + rewrite upd_nth_other by auto. rewrite nth_error_repeat by auto. replace (Z.of_nat j =? k) with false by lia. auto.
  - apply nth_error_None. rewrite upd_nth_length, repeat_length. lia.
Qed.

(** One certain outcome in each row. *)
Lemma fill_certain pos c rows : 0 <= rows -> 0 <= c -> (forall i, 0 <= i < rows -> 0 <= pos i < c) ->
  foldM (fun t i => sset t (i * c + pos i) n1) (repeat (n0 : A) (Z.to_nat (rows * c))) (zrange 0 rows) = Ok (flat_map (fun i => certain c (pos i)) (zrange 0 rows)).
Proof.
  intros Hr Hc Hp. rewrite repeat_blocks by auto. rewrite fill_blocks.
  - f_equal. apply flat_map_ext_in. intros k Hk. rewrite existsb_zrange. apply zrange_In in Hk. replace ((0 <=? k) && (k <? rows)) with true by lia.
    apply zeros_certain. auto.
  - intros _. apply repeat_length.
  - intros i Hi. apply zrange_In in Hi. split; auto.
Qed.

Lemma truth_certain b : truth (A := A) b = certain 2 (if b then 0 else 1).
Proof. destruct b; reflexivity. Qed.

Lemma fill_truth (b : Z -> bool) rows : 0 <= rows ->
  foldM (fun t i => set_row t i (b i)) (repeat (n0 : A) (Z.to_nat (rows * 2))) (zrange 0 rows) = Ok (flat_map (fun i => truth (b i)) (zrange 0 rows)).
Proof.
  intros Hr. rewrite (foldM_ext _ (fun t i => sset t (i * 2 + (if b i then 0 else 1)) n1)).
  - rewrite fill_certain; try lia; [|intros; destruct (b i); lia]. f_equal. apply flat_map_ext_in. intros k _. rewrite truth_certain. auto.
  - intros t i _. unfold set_row. destruct (b i); f_equal; lia.
Qed.

(** Rows numbered by truth values. *)
Lemma table_by_rows n (row : list bool -> list A) : 0 <= n -> table_by n row = flat_map (fun i => row (config_of (Z.to_nat n) i)) (zrange 0 (2 ^ n)).
Proof. intros H. unfold table_by. rewrite configurations_rows, flat_map_map, Z2Nat.id by auto. auto. Qed.
End Blocks.
