(** Nodes with a logic operator in a network. *)
From Coq Require Import ZArith List Bool String Lia Permutation QArith Qcanon.
From Verif Require Import Num GoBase VarModel GoFacts SpecFactor XnumFacts VEModel SpecVE NetModel SpecNet NetVars NetFactors NetSums NetQuery NetMass NetCor NetMarkov NetNew NetChange
  LogicModel SpecLogic LogicFacts LogicThms LogicShape TextModel DocModel SpecDoc TextFacts DocFacts SpecOperators Props_Logic Props_Net SpecAnswers NetBayes.
Import ListNotations.
Open Scope string_scope.
Open Scope list_scope.
Open Scope Z_scope.

(** ** Tables *)

Lemma nth_rows {X Y} (row : Y -> list X) c l : (forall y, In y l -> List.length (row y) = c) -> forall i j y, nth_error l i = Some y -> (j < c)%nat ->
  nth_error (flat_map row l) (i * c + j) = nth_error (row y) j.
Proof.
  induction l as [|z l IH]; intros Hl i j y Hi Hj; [destruct i; discriminate|]. cbn [flat_map].
  assert (E : List.length (row z) = c) by (apply Hl; left; auto).
  destruct i as [|i].
  - cbn in Hi. injection Hi as <-. cbn [Nat.mul Nat.add]. rewrite nth_error_app1 by lia. auto.
  - cbn in Hi. rewrite nth_error_app2 by (rewrite E; lia). rewrite E. replace (S i * c + j - c)%nat with (i * c + j)%nat by lia.
    apply IH; auto. intros w Hw. apply Hl. right. auto.
Qed.
Lemma conf_length k : List.length (configurations k) = (2 ^ k)%nat.
Proof. induction k as [|k IH]; cbn; auto. rewrite app_length, !map_length, IH. lia. Qed.
Lemma code_from p : forall a, fold_left (fun i k => i * 2 + k)%nat p a = (a * 2 ^ List.length p + fold_left (fun i k => i * 2 + k)%nat p 0)%nat.
Proof.
  induction p as [|k p IH]; intros a; cbn [fold_left List.length]; [cbn; lia|]. rewrite IH, (IH (0 * 2 + k)%nat). cbn [Nat.pow]. nia.
Qed.
Lemma nth_conf p : (forall k, In k p -> (k < 2)%nat) -> nth_error (configurations (List.length p)) (fold_left (fun i k => i * 2 + k)%nat p 0%nat) = Some (truths p).
Proof.
  induction p as [|k p IH]; intros Hp; auto. cbn [List.length configurations fold_left]. rewrite code_from.
  assert (Hk : (k < 2)%nat) by (apply Hp; left; auto). assert (E := IH (fun j H => Hp j (or_intror H))).
  assert (Hlt : (fold_left (fun i k => i * 2 + k)%nat p 0 < 2 ^ List.length p)%nat) by (rewrite <- conf_length; apply nth_error_Some; rewrite E; discriminate).
  cbn [truths map]. destruct k as [|[|k]]; [| |lia].
  - rewrite nth_error_app1 by (rewrite map_length, conf_length; cbn; lia). cbn [Nat.mul Nat.add]. rewrite nth_error_map, E. reflexivity.
  - rewrite nth_error_app2 by (rewrite map_length, conf_length; lia). rewrite map_length, conf_length.
    replace ((0 * 2 + 1) * 2 ^ List.length p + fold_left (fun i k => i * 2 + k)%nat p 0 - 2 ^ List.length p)%nat with (fold_left (fun i k => i * 2 + k)%nat p 0%nat) by lia.
    rewrite nth_error_map, E. reflexivity.
Qed.
Lemma nth_zrange m k : (k < m)%nat -> nth_error (zrange 0 (Z.of_nat m)) k = Some (Z.of_nat k).
Proof. intros H. unfold zrange. rewrite nth_error_map. replace (Z.to_nat (Z.of_nat m - 0)) with m by lia. rewrite (nth_error_nth' _ 0%nat) by (rewrite seq_length; auto). rewrite seq_nth by auto. cbn. f_equal. Qed.
Lemma truth_at b j : (j < 2)%nat -> nth_error (truth (A := xnum) b) j = Some (if (j =? outcome_of b)%nat then Fin 1%Qc else Fin 0%Qc).
Proof. destruct b, j as [|[|j]]; intros; try lia; reflexivity. Qed.
Lemma certain_at c v j : (j < c)%nat -> 0 <= v -> nth_error (certain (A := xnum) (Z.of_nat c) v) j = Some (if (j =? Z.to_nat v)%nat then Fin 1%Qc else Fin 0%Qc).
Proof.
  intros Hj Hv. unfold certain. rewrite nth_error_map, nth_zrange by auto. cbn [option_map]. f_equal.
  destruct (Nat.eqb_spec j (Z.to_nat v)), (Z.eqb_spec (Z.of_nat j) v); try reflexivity; lia.
Qed.
Definition place (sizes p : list nat) : nat := fold_left (fun i '(m, k) => i * m + k)%nat (combine sizes p) 0%nat.
Definition row_count (sizes : list nat) : nat := fold_right Nat.mul 1%nat sizes.
(** In the row for [p], the entry for outcome [F p] is one and the others are zero. *)
Definition gives_if (P : list nat -> Prop) (t : list xnum) (sizes : list nat) (cols : nat) (F : list nat -> nat) : Prop :=
  forall p, P p -> Forall2 lt p sizes -> (F p < cols)%nat /\ forall j, (j < cols)%nat ->
    nth_error t (place sizes p * cols + j) = Some (if (j =? F p)%nat then Fin 1%Qc else Fin 0%Qc).
Definition gives := gives_if (fun _ => True).
Lemma two_valued_lt m : forall p, Forall2 lt p (two_valued m) <-> List.length p = m /\ forall k, In k p -> (k < 2)%nat.
Proof.
  unfold two_valued. induction m as [|m IH]; intros p; cbn [repeat].
  - split; [intros H; inversion H; split; auto; intros k []|intros [H _]; destruct p; [constructor|discriminate]].
  - destruct p as [|k p]; [split; [intros H; inversion H|intros [H _]; discriminate]|]. split.
    + intros H. inversion H; subst. destruct (proj1 (IH p) H5) as [E Hp]. split; [cbn; auto|]. intros j [<-|Hj]; auto.
    + intros [E Hp]. constructor; [apply Hp; left; auto|]. apply IH. split; [cbn in E; congruence|]. intros j Hj. apply Hp. right. auto.
Qed.
Lemma two_valued_place_from m : forall p a, List.length p = m ->
  fold_left (fun i '(m, k) => i * m + k)%nat (combine (two_valued m) p) a = fold_left (fun i k => i * 2 + k)%nat p a.
Proof.
  unfold two_valued. induction m as [|m IH]; intros p a Hp; destruct p as [|k p]; try discriminate; auto.
  cbn [repeat combine fold_left]. apply IH. cbn in Hp. congruence.
Qed.
Lemma two_valued_place m p : List.length p = m -> place (two_valued m) p = fold_left (fun i k => i * 2 + k)%nat p 0%nat.
Proof. apply two_valued_place_from. Qed.
Lemma two_valued_rows m : row_count (two_valued m) = (2 ^ m)%nat.
Proof. unfold row_count, two_valued. induction m as [|m IH]; cbn [repeat fold_right Nat.pow]; auto. Qed.
Lemma flat_map_length {X Y} (row : Y -> list X) c l : (forall y, In y l -> List.length (row y) = c) -> List.length (flat_map row l) = (List.length l * c)%nat.
Proof. induction l as [|y l IH]; intros H; auto. cbn [flat_map]. rewrite app_length, (H y (or_introl eq_refl)), IH; [cbn; lia|]. intros z Hz. apply H. right. auto. Qed.
Lemma gives_two m row cols F : (forall b, List.length b = m -> List.length (row b) = cols) ->
  (forall p, List.length p = m -> (F p < cols)%nat /\ forall j, (j < cols)%nat -> nth_error (row (truths p)) j = Some (if (j =? F p)%nat then Fin 1%Qc else Fin 0%Qc)) ->
  List.length (table_by (A := xnum) (Z.of_nat m) row) = (row_count (two_valued m) * cols)%nat /\ gives (table_by (A := xnum) (Z.of_nat m) row) (two_valued m) cols F.
Proof.
  intros Hlen HF.
  assert (Hc : forall b, In b (configurations m) -> List.length b = m).
  { clear. induction m as [|m IH]; cbn; intros b Hb; [destruct Hb as [<-|[]]; auto|]. apply in_app_or in Hb. destruct Hb as [Hb|Hb]; apply in_map_iff in Hb; destruct Hb as (c & <- & Hc); cbn; auto. }
  unfold table_by. rewrite Nat2Z.id. split.
  - rewrite (flat_map_length _ cols), conf_length, two_valued_rows; auto.
  - intros p _ Hp. apply two_valued_lt in Hp. destruct Hp as [Hp H2]. destruct (HF p Hp) as [Hlt Hat]. split; auto. intros j Hj.
    rewrite two_valued_place by auto. rewrite <- Hat by auto. apply nth_rows; auto. rewrite <- Hp. apply nth_conf. auto.
Qed.
Lemma gives_outcome m row cols F : (forall k, List.length (row k) = cols) ->
  (forall k, (F [k] < cols)%nat /\ forall j, (j < cols)%nat -> nth_error (row (Z.of_nat k)) j = Some (if (j =? F [k])%nat then Fin 1%Qc else Fin 0%Qc)) ->
  List.length (table_by_outcome (A := xnum) (Z.of_nat m) row) = (row_count [m] * cols)%nat /\ gives (table_by_outcome (A := xnum) (Z.of_nat m) row) [m] cols F.
Proof.
  intros Hlen HF. unfold table_by_outcome. split.
  - rewrite (flat_map_length _ cols) by auto. unfold zrange. rewrite map_length, seq_length. cbn. lia.
  - intros p _ Hp. inversion Hp as [|k m' p' l' Hk Hp']; subst. inversion Hp'; subst. destruct (HF k) as [Hlt Hat]. split; auto. intros j Hj.
    rewrite <- Hat by auto. apply (nth_rows row cols); auto. cbn. apply nth_zrange. auto.
Qed.
Lemma truth_rows (f : list bool -> bool) m F : (forall p, F p = outcome_of (f (truths p))) ->
  List.length (table_by (A := xnum) (Z.of_nat m) (fun p => truth (f p))) = (row_count (two_valued m) * 2)%nat /\ gives (table_by (A := xnum) (Z.of_nat m) (fun p => truth (f p))) (two_valued m) 2 F.
Proof.
  intros HF. apply gives_two; [intros b _; destruct (f b); auto|]. intros p Hp. rewrite HF. split; [destruct (f (truths p)); cbn; lia|]. intros j Hj. apply truth_at. auto.
Qed.
Lemma outcome_rows (f : Z -> bool) m F : (forall k, F [k] = outcome_of (f (Z.of_nat k))) ->
  List.length (table_by_outcome (A := xnum) (Z.of_nat m) (fun k => truth (f k))) = (row_count [m] * 2)%nat /\ gives (table_by_outcome (A := xnum) (Z.of_nat m) (fun k => truth (f k))) [m] 2 F.
Proof.
  intros HF. apply gives_outcome; [intros k; destruct (f k); auto|]. intros k. rewrite HF. split; [destruct (f (Z.of_nat k)); cbn; lia|]. intros j Hj. apply truth_at. auto.
Qed.
Lemma certain_rows (f : list bool -> Z) m c F : (forall b, List.length b = m -> 0 <= f b < Z.of_nat c) -> (forall p, F p = Z.to_nat (f (truths p))) ->
  List.length (table_by (A := xnum) (Z.of_nat m) (fun p => certain (Z.of_nat c) (f p))) = (row_count (two_valued m) * c)%nat /\
  gives (table_by (A := xnum) (Z.of_nat m) (fun p => certain (Z.of_nat c) (f p))) (two_valued m) c F.
Proof.
  intros Hf HF. apply gives_two; [intros b _; unfold certain, zrange; rewrite !map_length, seq_length; lia|]. intros p Hp. rewrite HF.
  assert (Hb : 0 <= f (truths p) < Z.of_nat c) by (apply Hf; unfold truths; rewrite map_length; auto). split; [lia|]. intros j Hj. apply certain_at; auto. lia.
Qed.
Lemma filter_le {X} (p : X -> bool) l : (List.length (filter p l) <= List.length l)%nat.
Proof. induction l as [|x l IH]; cbn; auto. destruct (p x); cbn; lia. Qed.
Lemma bits_range b : forall a, 0 <= a -> 0 <= fold_left (fun v (b : bool) => 2 * v + if b then 1 else 0) b a < (a + 1) * 2 ^ Z.of_nat (List.length b).
Proof.
  induction b as [|x b IH]; intros a Ha; [cbn; lia|]. cbn [fold_left List.length]. rewrite Nat2Z.inj_succ, Z.pow_succ_r by lia.
  assert (H := IH (2 * a + (if x then 1 else 0)) ltac:(destruct x; lia)). destruct x; nia.
Qed.
Theorem operator_gives op args sizes F : operator_value op args sizes F -> exists t cols, operator_table (A := xnum) op args (List.length sizes) = Ok t /\
  List.length t = (row_count sizes * cols)%nat /\ gives t sizes cols F.
Proof.
  assert (El : forall m, List.length (two_valued m) = m) by (intros; apply repeat_length).
  intros H. destruct H as [name f Hin|name f Hin|name cmp value m Hin Hfit|m Hfit|m Hfit|m Hfit|m idx Hi Hfit|m idx Hi Hfit|m idx Hi Hfit|m idx Hi Hfit|m idx Hi Hfit|m l Hn Hi Hfit|m idx Hi Hfit|m idx Hi Hfit];
    unfold operator_table; try rewrite El; cbn [List.length].
  - exists (table_by (Z.of_nat 1) (fun p => truth (f (parent 0 p)))), 2%nat. split; [exact (C44_unary name f Hin)|]. apply (truth_rows (fun p => f (parent 0 p))). auto.
  - exists (table_by (Z.of_nat 2) (fun p => truth (f (parent 0 p) (parent 1 p)))), 2%nat. split; [exact (C44_binary name f Hin)|]. apply (truth_rows (fun p => f (parent 0 p) (parent 1 p))). auto.
  - exists (table_by (Z.of_nat m) (fun p => truth (cmp (count_true p) value))), 2%nat. split.
    + destruct (C45_count (A := xnum) value (Z.of_nat m) ltac:(lia) Hfit) as (H1 & H2 & H3). destruct Hin as [E|[E|[E|[]]]]; injection E as <- <-; auto.
    + apply (truth_rows (fun p => cmp (count_true p) value)). auto.
  - exists (table_by (Z.of_nat m) (fun p => certain (Z.of_nat (m + 1)) (count_true p))), (m + 1)%nat. split.
    + rewrite Nat2Z.inj_add. exact (proj1 (C45_count_true_false (A := xnum) (Z.of_nat m) ltac:(lia) Hfit)).
    + apply (certain_rows count_true); auto. intros b <-. unfold count_true, zlen. assert (H := filter_le (fun b : bool => b) b). lia.
  - exists (table_by (Z.of_nat m) (fun p => certain (Z.of_nat (m + 1)) (count_false p))), (m + 1)%nat. split.
    + rewrite Nat2Z.inj_add. exact (proj2 (C45_count_true_false (A := xnum) (Z.of_nat m) ltac:(lia) Hfit)).
    + apply (certain_rows count_false); auto. intros b <-. unfold count_false, zlen. assert (H := filter_le negb b). lia.
  - exists (table_by (Z.of_nat m) (fun p => certain (Z.of_nat (2 ^ m)) (bits_value p))), (2 ^ m)%nat. split.
    + rewrite Nat2Z.inj_pow. exact (C46_bits (A := xnum) (Z.of_nat m) ltac:(lia) Hfit).
    + apply (certain_rows bits_value); auto. intros b <-. rewrite Nat2Z.inj_pow. assert (H := bits_range b 0 ltac:(lia)). unfold bits_value. cbn [Z.of_nat Pos.of_succ_nat Pos.succ]. lia.
  - destruct (C47_given_partial (A := xnum) idx (Z.of_nat m) Hi Hfit) as (H1 & H2 & H3). eexists _, 2%nat. split; [exact H1|]. apply (truth_rows (fun p => parent (Z.of_nat m - 1 - idx) p)). auto.
  - destruct (C47_given_partial (A := xnum) idx (Z.of_nat m) Hi Hfit) as (H1 & H2 & H3). eexists _, 2%nat. split; [exact H2|]. apply (truth_rows (fun p => negb (parent (Z.of_nat m - 1 - idx) p))). auto.
  - destruct (C47_given_partial (A := xnum) idx (Z.of_nat m) Hi Hfit) as (H1 & H2 & H3). eexists _, 2%nat. split; [exact H3|]. apply (truth_rows (fun p => only_parent (Z.of_nat m) (Z.of_nat m - 1 - idx) p)). auto.
  - eexists _, 2%nat. split; [exact (proj1 (C48_outcome (A := xnum) idx (Z.of_nat m) Hi Hfit))|]. apply (outcome_rows (fun k => k =? idx)). auto.
  - eexists _, 2%nat. split; [exact (proj2 (C48_outcome (A := xnum) idx (Z.of_nat m) Hi Hfit))|]. apply (outcome_rows (fun k => negb (k =? idx))). auto.
  - eexists _, 2%nat. split; [exact (C48_outcome_either (A := xnum) l (Z.of_nat m) Hn Hi Hfit)|]. apply (outcome_rows (fun k => existsb (Z.eqb k) l)). auto.
  - eexists _, 2%nat. split; [exact (C48_outcome_less (A := xnum) idx (Z.of_nat m) Hi Hfit)|]. apply (outcome_rows (fun k => k <? idx)). auto.
  - eexists _, 2%nat. split; [exact (C48_outcome_greater_partial (A := xnum) idx (Z.of_nat m) Hi Hfit)|]. apply (outcome_rows (fun k => k >=? idx)). auto.
Qed.

(** ** Networks *)

Section ND.
Variable n : network xnum.
Hypothesis Hwf : wf_network n.
Notation vars := (n_vars n).

Lemma cell_place s : forall names, cell vars names s = place (map (num_outcomes vars) names) (map s names).
Proof.
  intros names. unfold cell, place. generalize 0%nat as a. induction names as [|x names IH]; intros a; auto. cbn [map combine fold_left]. apply IH.
Qed.
Lemma table_size_rows names x : table_size vars (names ++ [x]) = (row_count (map (num_outcomes vars) names) * num_outcomes vars x)%nat.
Proof. unfold table_size, row_count. induction names as [|y names IH]; cbn [app map fold_right]; [lia|]. rewrite IH. lia. Qed.
Lemma proper_num s x v : proper_state n s -> var_named vars x = Some v -> (s x < num_outcomes vars x)%nat.
Proof. intros Hs E. unfold num_outcomes. rewrite E. destruct (var_named_some _ _ _ E) as [Hin <-]. apply Hs. auto. Qed.

Section Det.
Variables (f : nfactor xnum) (t : list xnum) (cols : nat) (F : list nat -> nat) (P : list nat -> Prop).
Hypothesis Hf : In f (chance_factors n).
Hypothesis Ht : nf_table f = Some t.
Hypothesis Hlen : List.length t = (row_count (map (num_outcomes vars) (nf_given f)) * cols)%nat.
Hypothesis Hg : gives_if P t (map (num_outcomes vars) (nf_given f)) cols F.
Notation x := (nf_for f).
Notation value_of s := (F (map s (nf_given f))).

Lemma det_cols : cols = num_outcomes vars x.
Proof.
  destruct (chance_in n Hwf f Hf) as (_ & Hk & _ & Hw). destruct (wt_table _ _ Hw) as (l & El & Hl); [congruence|].
  rewrite Ht in El. injection El as El. rewrite El, map_length, Hl, table_size_rows in Hlen.
  assert (Hpos : forall names, (forall g, In g names -> exists v, var_named vars g = Some v) -> (0 < row_count (map (num_outcomes vars) names))%nat).
  { induction names as [|g names IH]; intros H; [cbn; lia|]. cbn [map row_count fold_right]. apply Nat.mul_pos_pos; [|apply IH; intros; apply H; right; auto].
    destruct (H g (or_introl eq_refl)) as [v Ev]. unfold num_outcomes. rewrite Ev. destruct (var_named_some _ _ _ Ev) as [Hin _]. assert (Ho := wn_outcomes n Hwf v Hin). unfold zlen in Ho. lia. }
  assert (H0 := Hpos (nf_given f) (fun g Hi => proj2 (wt_given _ _ Hw g Hi))). nia.
Qed.
Lemma det_entry s : P (map s (nf_given f)) -> proper_state n s -> (value_of s < num_outcomes vars x)%nat /\ entry vars f s = if (s x =? value_of s)%nat then 1%Qc else 0%Qc.
Proof.
  intros HP Hs. destruct (chance_in n Hwf f Hf) as (_ & _ & _ & Hw). destruct (Hg (map s (nf_given f)) HP) as [Hlt Hat].
  { assert (Hgi := fun g Hi => proj2 (wt_given _ _ Hw g Hi)). revert Hgi. generalize (nf_given f). intros l Hgi. induction l as [|g l IH]; cbn [map]; constructor.
    - destruct (Hgi g (or_introl eq_refl)) as [v Ev]. apply (proper_num s g v); auto.
    - apply IH. intros h Hh. apply Hgi. right. auto. }
  rewrite det_cols in Hlt, Hat. split; auto. unfold entry. rewrite Ht. cbn [slice_of]. unfold cell. rewrite fold_left_app. cbn [fold_left]. fold (cell vars (nf_given f) s).
  rewrite cell_place, Hat; [destruct (_ =? _)%nat; auto|]. destruct (wt_for _ _ Hw) as [v Ev]. apply (proper_num s x v); auto.
Qed.
Lemma det_weight s : P (map s (nf_given f)) -> proper_state n s -> s x <> value_of s -> cond_prob vars f s = 0%Qc.
Proof.
  intros HP Hs Hne. destruct (det_entry s HP Hs) as [_ He]. unfold cond_prob. rewrite He. destruct (Nat.eqb_spec (s x) (value_of s)); [contradiction|].
  destruct (qeq (row_sum vars f s) 0%Qc); auto. unfold Qcdiv. ring.
Qed.
Lemma det_joint ign s : P (map s (nf_given f)) -> proper_state n s -> joint n ign s <> 0%Qc -> s x = value_of s.
Proof.
  intros HP Hs Hj. destruct (Nat.eq_dec (s x) (value_of s)) as [|Hne]; auto. exfalso. apply Hj. unfold joint.
  assert (E : qprod (map (fun f => cond_prob vars f s) (chance_factors n)) = 0%Qc); [|rewrite E; ring].
  generalize Hf. generalize (chance_factors n). induction l as [|g l IH]; intros Hin; [destruct Hin|].
  change (cond_prob vars g s * qprod (map (fun f => cond_prob vars f s) l) = 0)%Qc. destruct Hin as [->|Hin]; [rewrite det_weight by auto; ring|]. rewrite IH by auto. ring.
Qed.
(** Only states in which the node has the operator's outcome count. *)
Theorem det_mass ign E1 E2 : (forall s, proper_state n s -> (P (map s (nf_given f)) -> s x = value_of s) -> E1 s = E2 s) -> mass n ign E1 = mass n ign E2.
Proof.
  intros H. unfold mass. rewrite !qsum_filter. f_equal. apply map_ext_in. intros s Hs. assert (Hp : proper_state n s) by (apply (world_proper n Hwf); auto).
  destruct (qeq (joint n ign s) 0%Qc) eqn:E0; [apply qeq_spec in E0; rewrite E0; destruct (E1 s), (E2 s); auto|].
  rewrite (H s); auto. intros HP. apply (det_joint ign s HP Hp). intros E. rewrite E, qeq_refl in E0. discriminate.
Qed.
End Det.
End ND.

(** ** Documents *)

Lemma operator_known op args sizes F : operator_value op args sizes F -> In op (operator_names (A := xnum)).
Proof.
  intros H. assert (Hb : existsb (String.eqb op) (operator_names (A := xnum)) = true); [|apply existsb_exists in Hb; destruct Hb as (y & Hy & E); apply String.eqb_eq in E; subst; auto].
  destruct H as [name f Hin|name f Hin|name cmp value m Hin Hfit| | | | | | | | | | |]; try reflexivity;
    cbn in Hin; repeat (destruct Hin as [Hin|Hin]; [injection Hin as <- _; reflexivity|]); destruct Hin.
Qed.
Section Doc.
Variables (reg : list (string * lfactor xnum)) (d : ydoc xnum) (n : network xnum).
Hypothesis Hreg : like_new reg.
Hypothesis Hn : fst (from_yaml reg d) = Ok n.

Lemma doc_inputs : exists ps, Forall2 node_input (yd_vars d) ps /\ net_new (yd_name d) (yd_info d) (map fst ps) (map snd ps) = Ok n.
Proof.
  unfold from_yaml in Hn. destruct (yaml_split (yd_vars d)) as [[ps H]|(l1 & ps & v & l2 & E & H & HF)].
  - exists ps. split; auto. assert (E := yaml_nodes_ok _ _ H reg Hreg). destruct (yaml_nodes reg (yd_vars d)) as [xs reg']. cbn [fst] in *. subst xs. exact Hn.
  - exfalso. destruct (yaml_nodes_stop l1 ps v l2 H _ Hreg) as (reg' & HL & Hm). rewrite <- E in Hm. destruct (yaml_nodes reg (yd_vars d)) as [xs reg'']. cbn [fst] in *.
    destruct HF as [HF|HF]; [destruct (faulty_error reg' v HL HF) as (e & Ee)|destruct (crashing_panics reg' v HL HF) as (e & Ee)]; rewrite Ee in Hm; subst xs; discriminate.
Qed.
Lemma doc_unlinked ps v : Forall2 (node_input (A := xnum)) (yd_vars d) ps -> In v (map fst ps) -> nv_factor v = None.
Proof.
  intros H Hv. apply in_map_iff in Hv. destruct Hv as (p & <- & Hp). destruct (Forall2_in_r _ _ _ _ H Hp) as (y & _ & (t & tb & _ & _ & ->)). reflexivity.
Qed.
(** Every node has a variable and a table in the network. *)
Lemma doc_node v t table : NoDup (map nv_name (n_vars n)) -> In v (yd_vars d) -> type_text (y_type v) t -> node_table_of v (Ok table) ->
  exists f, In f (n_factors n) /\ nf_for f = y_name v /\ nf_given f = y_given v /\ nf_table f = table /\ kind (n_vars n) (y_name v) = Some t.
Proof.
  intros Hnd Hv Ht Htab. destruct doc_inputs as (ps & H & Hnew). destruct (new_api (yd_name d) (yd_info d) (map fst ps) (map snd ps) (fun v => doc_unlinked ps v H)) as (_ & _ & Hapi).
  destruct (Hapi n Hnew) as (_ & _ & _ & _ & Hvs & Hfs & _). destruct (Forall2_in_l _ _ _ _ H Hv) as (p & Hp & (t' & tb & Ht' & Htb & Ep)).
  assert (Et : t' = t). { apply type_lookup in Ht. apply type_lookup in Ht'. congruence. }
  assert (Eb : tb = table). { assert (E1 := to_table_functional reg v _ Hreg Htb). assert (E2 := to_table_functional reg v _ Hreg Htab). congruence. }
  subst t' tb. destruct (Forall2_in_l _ _ _ (snd p) Hfs (in_map snd _ _ Hp)) as (f & Hf & F1 & F2 & F3). destruct (Forall2_in_l _ _ _ (fst p) Hvs (in_map fst _ _ Hp)) as (w & Hw & W1 & W2 & _).
  rewrite Ep in *. cbn [fst snd nf_for nf_given nf_table nv_name nv_type] in *. exists f. split; auto. split; auto. split; auto. split; auto.
  unfold kind. rewrite <- W1, (var_named_in' _ w Hnd Hw). cbn. congruence.
Qed.
Lemma doc_complete : complete n.
Proof.
  intros w Hw Hc. destruct doc_inputs as (ps & H & Hnew). destruct (new_api (yd_name d) (yd_info d) (map fst ps) (map snd ps) (fun v => doc_unlinked ps v H)) as (_ & _ & Hapi).
  destruct (Hapi n Hnew) as (_ & _ & _ & _ & Hvs & Hfs & _). destruct (Forall2_in_r _ _ _ _ Hvs Hw) as (v & Hv & W1 & _). apply in_map_iff in Hv. destruct Hv as (p & <- & Hp).
  destruct (Forall2_in_l _ _ _ (snd p) Hfs (in_map snd _ _ Hp)) as (f & Hf & F1 & _). exists f. split; auto. destruct (Forall2_in_r _ _ _ _ H Hp) as (y & _ & (t & tb & _ & _ & Ep)). rewrite Ep in *. cbn in *. congruence.
Qed.
End Doc.

(** The network after loading, possibly with other policies *)
Lemma logic_transport reg d m n v op args F : like_new reg -> fst (from_yaml reg d) = Ok m -> n_vars n = n_vars m -> n_factors n = n_factors m -> wf_network n ->
  In v (yd_vars d) -> type_text (y_type v) Chance -> y_logic v <> "" -> y_table v = [] -> logic_text (y_logic v) op args ->
  operator_value op args (map (num_outcomes (n_vars n)) (y_given v)) F ->
  complete n /\ exists f, In f (chance_factors n) /\ nf_for f = y_name v /\ nf_given f = y_given v /\
    forall ign E1 E2, (forall s, s (y_name v) = F (map s (y_given v)) -> E1 s = E2 s) -> mass n ign E1 = mass n ign E2.
Proof.
  intros Hreg Hm Ev Ef Hwf Hv Ht Hl Htb Htext HF. split; [unfold complete; rewrite Ev, Ef; exact (doc_complete reg d m Hreg Hm)|].
  destruct (operator_gives _ _ _ _ HF) as (t & cols & Et & Hlen & Hg). rewrite map_length in Et.
  assert (Hnt : node_table_of v (Ok (Some t))). { right. right. split; auto. split; auto. exists op, args. split; auto. split; [eapply operator_known; eauto|]. rewrite Et. auto. }
  assert (Hnd : NoDup (map nv_name (n_vars m))) by (rewrite <- Ev; apply (wn_names n Hwf)).
  destruct (doc_node reg d m Hreg Hm v Chance (Some t) Hnd Hv Ht Hnt) as (f & Hf & F1 & F2 & F3 & F4). exists f.
  assert (Hc : In f (chance_factors n)) by (apply filter_In; split; [rewrite Ef; auto|rewrite F1, Ev, F4; auto]). split; auto. split; auto. split; auto.
  intros ign E1 E2 HE. rewrite <- F2 in Hlen, Hg. apply (det_mass n Hwf f t cols F (fun _ => True) Hc F3 Hlen Hg). intros s _ Hs. rewrite F1, F2 in Hs. auto.
Qed.
Lemma chance_askable n f ign ev : wf_network n -> In f (chance_factors n) -> ~ In (nf_for f) (map fst ev) -> askable n ign ev (nf_for f).
Proof.
  intros Hwf Hf Hx. destruct (chance_in n Hwf f Hf) as (_ & Hk & _ & Hw). split; [|split; auto].
  - destruct (wt_for _ _ Hw) as [w Ew]. exists w. split; auto. unfold kind in Hk. rewrite Ew in Hk. cbn in Hk. congruence.
  - left. exists f. split; auto. apply in_or_app. right. left. auto.
Qed.

(** The node is asked for. *)
Theorem logic_query reg d m n v op args F sc ig ev : like_new reg -> fst (from_yaml reg d) = Ok m -> n_vars n = n_vars m -> n_factors n = n_factors m -> wf_network n -> nonnegative n ->
  In v (yd_vars d) -> type_text (y_type v) Chance -> y_logic v <> "" -> y_table v = [] -> logic_text (y_logic v) op args ->
  operator_value op args (map (num_outcomes (n_vars n)) (y_given v)) F ->
  valid_observations n ev -> ~ In (y_name v) (map fst ev) ->
  let weight := mass n (ignored_by ig ev) in weight (agrees (n_vars n) ev) <> 0%Qc ->
  exists n' res fac, net_solve_query sc n ev [y_name v] ig = (n', Ok (res, fac)) /\
    sget_map res (y_name v) = Some (map (fun k => Fin (weight (fun s => agrees (n_vars n) ev s && (F (map s (y_given v)) =? k)%nat) / weight (agrees (n_vars n) ev))%Qc)
      (seq 0 (num_outcomes (n_vars n) (y_name v)))).
Proof.
  intros Hreg Hn Ev Ef Hwf Hnn Hv Ht Hl Htb Htext HF Hev Hx weight Hm. destruct (logic_transport reg d m n v op args F) as (Hco & f & Hf & F1 & F2 & HE); auto.
  destruct (C27_posterior n sc ig ev [y_name v] Hwf Hco Hnn Hev) as (n' & res & fac & E & Hres & _); auto; [intros q [<-|[]]; rewrite <- F1 in *; apply chance_askable; auto|].
  exists n', res, fac. split; auto. rewrite (Hres (y_name v) (or_introl eq_refl)). f_equal. apply map_ext. intros k. f_equal. unfold posterior, weight. f_equal. apply HE. intros s ->. auto.
Qed.

(** The node is observed. *)
Theorem logic_evidence reg d m n v op args F sc ig ev query o j : like_new reg -> fst (from_yaml reg d) = Ok m -> n_vars n = n_vars m -> n_factors n = n_factors m -> wf_network n -> nonnegative n ->
  In v (yd_vars d) -> type_text (y_type v) Chance -> y_logic v <> "" -> y_table v = [] -> logic_text (y_logic v) op args ->
  operator_value op args (map (num_outcomes (n_vars n)) (y_given v)) F -> nth_error (y_outcomes v) j = Some o ->
  let ev' := ev ++ [(y_name v, o)] in
  valid_observations n ev' -> (forall q, In q query -> askable n (ignored_by ig ev') ev' q) ->
  let weight := mass n (ignored_by ig ev') in let known := fun s => agrees (n_vars n) ev s && (F (map s (y_given v)) =? j)%nat in
  weight known <> 0%Qc ->
  exists n' res fac, net_solve_query sc n ev' query ig = (n', Ok (res, fac)) /\
    forall q, In q query -> sget_map res q = Some (map (fun k => Fin (weight (fun s => known s && (s q =? k)%nat) / weight known)%Qc) (seq 0 (num_outcomes (n_vars n) q))).
Proof.
  intros Hreg Hn Ev Ef Hwf Hnn Hv Ht Hl Htb Htext HF Ho ev' Hev Hask weight known Hm. destruct (logic_transport reg d m n v op args F) as (Hco & f & Hf & F1 & F2 & HE); auto.
  assert (Hx : exists w, var_named (n_vars n) (y_name v) = Some w /\ nth_error (nv_outcomes w) j = Some o).
  { destruct (doc_inputs reg d m Hreg Hn) as (ps & H & Hnew). destruct (new_api (yd_name d) (yd_info d) (map fst ps) (map snd ps) (fun v => doc_unlinked d ps v H)) as (_ & _ & Hapi).
    destruct (Hapi m Hnew) as (_ & _ & _ & _ & Hvs & _). destruct (Forall2_in_l _ _ _ _ H Hv) as (p & Hp & (t' & tb & Ht' & Htab & Ep)).
    destruct (Forall2_in_l _ _ _ (fst p) Hvs (in_map fst _ _ Hp)) as (w & Hw & W1 & _ & W3 & _). rewrite Ep in *. cbn [fst nv_name nv_outcomes] in *. rewrite <- Ev in Hw. exists w. split; [|congruence].
    rewrite <- W1. apply var_named_in'; auto. apply (wn_names n Hwf). }
  destruct Hx as (w & Hw & Hwo).
  assert (Hag : forall s, agrees (n_vars n) ev' s = agrees (n_vars n) ev s && (s (y_name v) =? j)%nat) by (intros s; apply (agrees_more n Hwf ev _ _ w); auto).
  assert (EM : weight (agrees (n_vars n) ev') = weight known) by (apply HE; intros s Hs; rewrite Hag, Hs; auto).
  destruct (C27_posterior n sc ig ev' query Hwf Hco Hnn Hev Hask) as (n' & res & fac & E & Hres & _); [fold weight; rewrite EM; auto|].
  exists n', res, fac. split; auto. intros q Hq. rewrite (Hres q Hq). f_equal. apply map_ext. intros k. f_equal. unfold posterior. fold weight. rewrite EM. f_equal. apply HE. intros s Hs. rewrite Hag, Hs. auto.
Qed.

(** ** Conditions *)

Lemma condition_gives op b c : In (op, (b, c)) implications -> exists t, operator_table (A := xnum) op [] 1 = Ok t /\ List.length t = (row_count [2] * 2)%nat /\
  gives_if (eq [outcome_of b]) t [2%nat] 2 (fun _ => outcome_of c).
Proof.
  intros H. cbn in H. repeat (destruct H as [H|H]; [injection H as <- <- <-|]); [| | | |destruct H]; unfold operator_table;
    [exists (table_by 1 (fun p => if parent 0 p then truth true else unknown))|exists (table_by 1 (fun p => if negb (parent 0 p) then truth true else unknown))|
     exists (table_by 1 (fun p => if parent 0 p then truth false else unknown))|exists (table_by 1 (fun p => if negb (parent 0 p) then truth false else unknown))];
    (split; [match goal with |- fst (use_operator _ ?nm _ _) = Ok (table_by _ ?r) => apply (C44_conditions nm (fun a => r [a])) end; cbn; auto 10|]);
    (split; [reflexivity|]); intros p <- _; (split; [cbn; lia|]); intros [|[|j]] Hj; try lia; reflexivity.
Qed.
Lemma condition_transport reg d m n v op b c g : like_new reg -> fst (from_yaml reg d) = Ok m -> n_vars n = n_vars m -> n_factors n = n_factors m -> wf_network n ->
  In v (yd_vars d) -> type_text (y_type v) Chance -> y_logic v <> "" -> y_table v = [] -> logic_text (y_logic v) op [] ->
  In (op, (b, c)) implications -> y_given v = [g] -> num_outcomes (n_vars n) g = 2%nat ->
  complete n /\ num_outcomes (n_vars n) (y_name v) = 2%nat /\ exists f, In f (chance_factors n) /\ nf_for f = y_name v /\ nf_given f = [g] /\
    forall ign E1 E2, (forall s, proper_state n s -> (s g = outcome_of b -> s (y_name v) = outcome_of c) -> E1 s = E2 s) -> mass n ign E1 = mass n ign E2.
Proof.
  intros Hreg Hm Ev Ef Hwf Hv Ht Hl Htb Htext Hop Hg Hg2. split; [unfold complete; rewrite Ev, Ef; exact (doc_complete reg d m Hreg Hm)|].
  destruct (condition_gives op b c Hop) as (t & Et & Hlen & HG).
  assert (Hnt : node_table_of v (Ok (Some t))).
  { right. right. split; auto. split; auto. exists op, []. split; auto. split; [|rewrite Hg; cbn [List.length]; rewrite Et; auto].
    assert (Hb : existsb (String.eqb op) (operator_names (A := xnum)) = true); [|apply existsb_exists in Hb; destruct Hb as (y & Hy & E); apply String.eqb_eq in E; subst; auto].
    cbn in Hop. repeat (destruct Hop as [H|Hop]; [injection H as <- _ _; reflexivity|]). destruct Hop. }
  assert (Hnd : NoDup (map nv_name (n_vars m))) by (rewrite <- Ev; apply (wn_names n Hwf)).
  destruct (doc_node reg d m Hreg Hm v Chance (Some t) Hnd Hv Ht Hnt) as (f & Hf & F1 & F2 & F3 & F4).
  assert (Hc : In f (chance_factors n)) by (apply filter_In; split; [rewrite Ef; auto|rewrite F1, Ev, F4; auto]). rewrite Hg in F2.
  assert (Es : map (num_outcomes (n_vars n)) (nf_given f) = [2%nat]) by (rewrite F2; cbn [map]; rewrite Hg2; auto). rewrite <- Es in Hlen, HG.
  split; [rewrite <- F1; symmetry; apply (det_cols n Hwf f t 2%nat); auto|].
  exists f. split; auto. split; auto. split; auto.
  intros ign E1 E2 HE. apply (det_mass n Hwf f t 2%nat (fun _ => outcome_of c) (eq [outcome_of b]) Hc F3 Hlen HG). intros s Hp Hs. apply HE; auto. intros Hsg. rewrite <- F1. apply Hs. rewrite F2. cbn [map]. congruence.
Qed.
Lemma agrees_at n ev x o w i s : wf_network n -> In (x, o) ev -> var_named (n_vars n) x = Some w -> nth_error (nv_outcomes w) i = Some o -> agrees (n_vars n) ev s = true -> s x = i.
Proof.
  intros Hwf Hin Hw Hi Hs. unfold agrees in Hs. rewrite forallb_forall in Hs. specialize (Hs _ Hin). cbn in Hs. rewrite Hw in Hs.
  destruct (nth_error (nv_outcomes w) (s x)) as [o'|] eqn:E; [|discriminate]. apply String.eqb_eq in Hs. subst o'.
  apply (proj1 (NoDup_nth_error (nv_outcomes w))); [apply (wn_distinct n Hwf); apply var_named_some in Hw; tauto|apply nth_error_Some; congruence|congruence].
Qed.
Lemma mass_nothing n ign : mass n ign (fun _ => false) = 0%Qc.
Proof. unfold mass. rewrite qsum_filter. induction (worlds_of n) as [|s l IH]; auto. cbn [map]. change (0 + qsum (map (fun _ => 0%Qc) l) = 0)%Qc. rewrite IH. ring. Qed.
Lemma two_answer n ign ev x b : mass n ign (agrees (n_vars n) ev) <> 0%Qc ->
  (forall k, mass n ign (fun s => agrees (n_vars n) ev s && (s x =? k)%nat) = mass n ign (fun s => agrees (n_vars n) ev s && (k =? outcome_of b)%nat)) ->
  map (fun k => Fin (posterior n ign ev x k)) (seq 0 2) = truth b.
Proof.
  intros Hm H. cbn [seq map]. unfold posterior. rewrite !H.
  assert (E1 : mass n ign (fun s => agrees (n_vars n) ev s && true) = mass n ign (agrees (n_vars n) ev)) by (unfold mass; rewrite !qsum_filter; f_equal; apply map_ext; intros s; rewrite andb_true_r; auto).
  assert (E0 : mass n ign (fun s => agrees (n_vars n) ev s && false) = 0%Qc) by (rewrite <- (mass_nothing n ign); unfold mass; rewrite !qsum_filter; f_equal; apply map_ext; intros s; rewrite andb_false_r; auto).
  assert (D1 : (mass n ign (agrees (n_vars n) ev) / mass n ign (agrees (n_vars n) ev))%Qc = 1%Qc) by (field; auto).
  assert (D0 : (0 / mass n ign (agrees (n_vars n) ev))%Qc = 0%Qc) by (field; auto).
  destruct b; cbn [outcome_of Nat.eqb]; rewrite E1, E0, D1, D0; reflexivity.
Qed.
Theorem condition_forward reg d m n v op b c g sc ig ev o w : like_new reg -> fst (from_yaml reg d) = Ok m -> n_vars n = n_vars m -> n_factors n = n_factors m -> wf_network n -> nonnegative n ->
  In v (yd_vars d) -> type_text (y_type v) Chance -> y_logic v <> "" -> y_table v = [] -> logic_text (y_logic v) op [] ->
  In (op, (b, c)) implications -> y_given v = [g] -> num_outcomes (n_vars n) g = 2%nat ->
  valid_observations n ev -> mass n (ignored_by ig ev) (agrees (n_vars n) ev) <> 0%Qc -> ~ In (y_name v) (map fst ev) ->
  var_named (n_vars n) g = Some w -> nth_error (nv_outcomes w) (outcome_of b) = Some o -> In (g, o) ev ->
  exists n' res fac, net_solve_query sc n ev [y_name v] ig = (n', Ok (res, fac)) /\ sget_map res (y_name v) = Some (truth c).
Proof.
  intros Hreg Hn Ev Ef Hwf Hnn Hv Ht Hl Htb Htext Hop Hg Hg2 Hev Hm Hx Hw Ho Hin.
  destruct (condition_transport reg d m n v op b c g) as (Hco & H2 & f & Hf & F1 & F2 & HE); auto.
  destruct (C27_posterior n sc ig ev [y_name v] Hwf Hco Hnn Hev) as (n' & res & fac & E & Hres & _); auto; [intros q [<-|[]]; rewrite <- F1 in *; apply chance_askable; auto|].
  exists n', res, fac. split; auto. rewrite (Hres (y_name v) (or_introl eq_refl)), H2. f_equal. apply two_answer; auto. intros k. apply HE. intros s _ Hs.
  destruct (agrees (n_vars n) ev s) eqn:Ea; auto. rewrite Hs by (apply (agrees_at n ev g o w); auto). cbn [andb]. apply Nat.eqb_sym.
Qed.
Theorem condition_backward reg d m n v op b c g sc ig ev o w : like_new reg -> fst (from_yaml reg d) = Ok m -> n_vars n = n_vars m -> n_factors n = n_factors m -> wf_network n -> nonnegative n ->
  In v (yd_vars d) -> type_text (y_type v) Chance -> y_logic v <> "" -> y_table v = [] -> logic_text (y_logic v) op [] ->
  In (op, (b, c)) implications -> y_given v = [g] -> num_outcomes (n_vars n) g = 2%nat ->
  valid_observations n ev -> mass n (ignored_by ig ev) (agrees (n_vars n) ev) <> 0%Qc -> ~ In g (map fst ev) ->
  var_named (n_vars n) (y_name v) = Some w -> nth_error (nv_outcomes w) (outcome_of (negb c)) = Some o -> In (y_name v, o) ev ->
  exists n' res fac, net_solve_query sc n ev [g] ig = (n', Ok (res, fac)) /\ sget_map res g = Some (truth (negb b)).
Proof.
  intros Hreg Hn Ev Ef Hwf Hnn Hv Ht Hl Htb Htext Hop Hg Hg2 Hev Hm Hx Hw Ho Hin.
  destruct (condition_transport reg d m n v op b c g) as (Hco & H2 & f & Hf & F1 & F2 & HE); auto.
  assert (Hask : askable n (ignored_by ig ev) ev g).
  { destruct (chance_in n Hwf f Hf) as (_ & _ & _ & Hwt). assert (Hgi : In g (nf_given f)) by (rewrite F2; left; auto). destruct (wt_given _ _ Hwt g Hgi) as (_ & u & Hu). assert (Hk := wt_parents _ _ Hwt g Hgi).
    split; [|split; auto].
    - exists u. split; auto. intros E. apply Hk. unfold kind. rewrite Hu. cbn. congruence.
    - left. exists f. split; auto. apply in_or_app. left. auto. }
  destruct (C27_posterior n sc ig ev [g] Hwf Hco Hnn Hev) as (n' & res & fac & E & Hres & _); auto; [intros q [<-|[]]; auto|].
  exists n', res, fac. split; auto. rewrite (Hres g (or_introl eq_refl)), Hg2. f_equal. apply two_answer; auto. intros k.
  apply HE. intros s Hp Hs. destruct (agrees (n_vars n) ev s) eqn:Ea; auto. cbn [andb].
  assert (Hv1 : s (y_name v) = outcome_of (negb c)) by (apply (agrees_at n ev _ o w); auto).
  assert (Hlt : (s g < 2)%nat). { destruct Hask as ((u & Hu & _) & _). rewrite <- Hg2. apply (proper_num n s g u); auto. }
  assert (Esg : s g = outcome_of (negb b)); [|rewrite Esg; apply Nat.eqb_sym].
  destruct (Nat.eq_dec (s g) (outcome_of b)) as [E1|E1]; [specialize (Hs E1); rewrite Hv1 in Hs; destruct c; discriminate|]. destruct b; cbn in *; lia.
Qed.
