(** All logic tables are conditional probability tables; operators keep no state between uses. *)
From Coq Require Import ZArith List Bool String Lia.
From Verif Require Import Num GoBase VarModel GoFacts LogicModel SpecLogic LogicFacts LogicThms.
Import ListNotations.
Open Scope string_scope.
Open Scope list_scope.
Open Scope Z_scope.

Section Shape.
Context {A : Type} {N : NumOps A}.

(** The number of outcomes and of parent configurations of a node with an operator. *)
Definition op_columns (l : lfactor A) (given : Z) : Z :=
  match l with LBits => 2 ^ given | LCountTrue | LCountFalse => given + 1 | _ => 2 end.
Definition op_rows (l : lfactor A) (given : Z) : Z :=
  match l with
  | LOutcomeIs _ n | LOutcomeIsNot _ n | LOutcomeEither _ n | LOutcomeLess _ n | LOutcomeGreater _ n => n
  | _ => 2 ^ given
  end.

Definition good_table (rows columns : Z) (t : list A) : Prop :=
  exists rs, t = List.concat rs /\ zlen rs = rows /\ (forall r, In r rs -> valid_row columns r).

Lemma valid_truth b : valid_row 2 (truth (A := A) b).
Proof. left. destruct b; [exists 0|exists 1]; split; try lia; reflexivity. Qed.
Lemma valid_unknown : valid_row 2 (unknown (A := A)).
Proof. right. auto. Qed.

Lemma good_by n c (row : list bool -> list A) : 0 <= n -> (forall p, List.length p = Z.to_nat n -> valid_row c (row p)) -> good_table (2 ^ n) c (table_by n row).
Proof.
  intros Hn H. rewrite table_by_rows by auto. exists (map (fun i => row (config_of (Z.to_nat n) i)) (zrange 0 (2 ^ n))). rewrite flat_map_concat_map.
  split; auto. split.
  - unfold zlen. rewrite map_length, zrange_length. assert (0 < 2 ^ n) by (apply Z.pow_pos_nonneg; lia). lia.
  - intros r Hr. apply in_map_iff in Hr. destruct Hr as (i & <- & _). apply H, config_length.
Qed.
Lemma good_by_outcome n c (row : Z -> list A) : 0 <= n -> (forall k, 0 <= k < n -> valid_row c (row k)) -> good_table n c (table_by_outcome n row).
Proof.
  intros Hn H. exists (map row (zrange 0 n)). unfold table_by_outcome. rewrite flat_map_concat_map. split; auto. split.
  - unfold zlen. rewrite map_length, zrange_length. lia.
  - intros r Hr. apply in_map_iff in Hr. destruct Hr as (i & <- & Hi). apply zrange_In in Hi. auto.
Qed.

(** Sizes: a table that does not fit is never returned. *)
Lemma first_step_fails (step : list A -> Z -> gores (list A)) rows t : 0 < rows -> (forall t', step [] 0 <> Ok t') -> foldM step [] (zrange 0 rows) <> Ok t.
Proof.
  intros Hr Hs. rewrite zrange_cons by lia. cbn [foldM]. destruct (step [] 0) as [t'| |] eqn:E; cbn [gbind]; try discriminate. destruct (Hs t'); auto.
Qed.
Lemma make_size n (t : list A) : make_floats n = Ok t -> 0 <= n <= 2 ^ 45 /\ t = repeat n0 (Z.to_nat n).
Proof.
  unfold make_floats, smake. destruct (Z.ltb_spec (2 ^ 45) n); [discriminate|]. destruct (Z.ltb_spec n 0); [discriminate|]. intros [= <-]. auto.
Qed.

Lemma two_fit (step : list A -> Z -> gores (list A)) given t : 0 <= given <= 63 -> (forall t', step [] 0 <> Ok t') ->
  (let! table := make_floats (u64 (rows_of given * 2)) in foldM step table (zrange 0 (rows_of given))) = Ok t -> 2 ^ given * 2 <= 2 ^ 45.
Proof.
  intros Hg Hs H. unfold rows_of in H. replace ((given <? 0) || (64 <=? given)) with false in H by lia.
  destruct (make_floats _) as [t0| |] eqn:E; try discriminate. cbn [gbind] in H. apply make_size in E. destruct E as [E ->].
  destruct (Z.eq_dec given 63) as [->|Hne].
  - exfalso. change (u64 (2 ^ 63 * 2)) with 0 in H. cbn [Z.to_nat repeat] in H. revert H. apply first_step_fails; auto. reflexivity.
  - unfold u64 in E. rewrite Z.mod_small in E; [lia|]. assert (2 ^ given <= 2 ^ 62) by (apply pow_mono_le; lia). assert (2 ^ 62 * 2 < 2 ^ 64) by reflexivity. lia.
Qed.

Lemma set_row_nil i b : forall t', set_row (A := A) [] i b <> Ok t'.
Proof. intros t'. unfold set_row, sset. destruct b; destruct (_ || _) eqn:E; try discriminate; unfold zlen in E; simpl in E; lia. Qed.
Lemma sset_nil i (v : A) : forall t', sset [] i v <> Ok t'.
Proof. intros t'. unfold sset. destruct (_ || _) eqn:E; try discriminate; unfold zlen in E; simpl in E; lia. Qed.

Lemma filter_len {B} (f : B -> bool) l : (List.length (filter f l) <= List.length l)%nat.
Proof. induction l as [|x l IH]; simpl; auto. destruct (f x); simpl; lia. Qed.
Lemma bits_value_range p n : List.length p = Z.to_nat n -> 0 <= n -> 0 <= bits_value p < 2 ^ n.
Proof.
  intros Hp Hn. assert (G : forall q v, 0 <= v -> v * 2 ^ Z.of_nat (List.length q) <= fold_left (fun v (b : bool) => 2 * v + if b then 1 else 0) q v < (v + 1) * 2 ^ Z.of_nat (List.length q)).
  { induction q as [|b q IH]; intros v Hv; [simpl; lia|]. cbn [fold_left List.length]. rewrite Nat2Z.inj_succ, Z.pow_succ_r by lia. specialize (IH (2 * v + if b then 1 else 0)). destruct b; lia. }
  specialize (G p 0 ltac:(lia)). rewrite Hp, Z2Nat.id in G by auto. unfold bits_value. lia.
Qed.
Lemma negative_index (step : list A -> Z -> gores (list A)) n given t : 0 <= given <= 63 -> (forall T i t', step T i <> Ok t') ->
  (let! T := make_floats n in foldM step T (zrange 0 (rows_of given))) <> Ok t.
Proof.
  intros Hg Hs. unfold rows_of. replace ((given <? 0) || (64 <=? given)) with false by lia. destruct (make_floats n) as [T| |]; cbn [gbind]; try discriminate.
  assert (0 < 2 ^ given) by (apply Z.pow_pos_nonneg; lia). rewrite zrange_cons by lia. cbn [foldM]. destruct (step T 0) as [t'| |] eqn:E; cbn [gbind]; try discriminate. destruct (Hs _ _ _ E).
Qed.

(** For all numbers of parents up to 63 at once. *)
Lemma all_upto (P : Z -> bool) n : forallb P (zrange 0 n) = true -> forall g, 0 <= g < n -> P g = true.
Proof. intros H g Hg. rewrite forallb_forall in H. apply H, zrange_In. auto. Qed.

Lemma count_sizes g : 0 <= g < 64 -> 2 ^ g * (g + 1) <= 2 ^ 45 \/ wrap64 (wrap64 (2 ^ g) * (g + 1)) <= 0 \/ 2 ^ 45 < wrap64 (wrap64 (2 ^ g) * (g + 1)).
Proof.
  intros Hg. pose proof (all_upto (fun g => (2 ^ g * (g + 1) <=? 2 ^ 45) || (wrap64 (wrap64 (2 ^ g) * (g + 1)) <=? 0) || (2 ^ 45 <? wrap64 (wrap64 (2 ^ g) * (g + 1)))) 64
    ltac:(vm_compute; reflexivity) g Hg) as H. cbv beta in H. lia.
Qed.
Lemma bits_sizes g : 0 <= g < 64 -> 2 ^ g * 2 ^ g <= 2 ^ 45 \/ wrap64 (u64 (2 ^ g * 2 ^ g)) <= 0 \/ 2 ^ 45 < wrap64 (u64 (2 ^ g * 2 ^ g)).
Proof.
  intros Hg. pose proof (all_upto (fun g => (2 ^ g * 2 ^ g <=? 2 ^ 45) || (wrap64 (u64 (2 ^ g * 2 ^ g)) <=? 0) || (2 ^ 45 <? wrap64 (u64 (2 ^ g * 2 ^ g)))) 64
    ltac:(vm_compute; reflexivity) g Hg) as H. cbv beta in H. lia.
Qed.

Lemma more_fit (step : list A -> Z -> gores (list A)) given size need t : 0 <= given <= 63 -> (forall t', step [] 0 <> Ok t') ->
  (need <= 2 ^ 45 \/ size <= 0 \/ 2 ^ 45 < size) ->
  (let! table := make_floats size in foldM step table (zrange 0 (rows_of given))) = Ok t -> need <= 2 ^ 45.
Proof.
  intros Hg Hs Hc H. unfold rows_of in H. replace ((given <? 0) || (64 <=? given)) with false in H by lia.
  destruct (make_floats _) as [t0| |] eqn:E; try discriminate. cbn [gbind] in H. apply make_size in E. destruct E as [E ->].
  destruct Hc as [Hc|Hc]; auto. exfalso. assert (size = 0) as -> by lia. revert H. cbn [Z.to_nat repeat]. apply first_step_fails; auto. apply Z.pow_pos_nonneg; lia.
Qed.

Lemma flat_truth (l : list bool) : good_table (zlen l) 2 (flat_map (truth (A := A)) l).
Proof.
  exists (map truth l). rewrite flat_map_concat_map. split; auto. split; [unfold zlen; rewrite map_length; auto|].
  intros r Hr. apply in_map_iff in Hr. destruct Hr as (b & <- & _). apply valid_truth.
Qed.

Lemma bool_good l given t : 0 <= given <= 63 -> zlen l <= 4 -> bool_table l given = Ok t -> good_table (2 ^ given) 2 t.
Proof.
  intros Hg Hl H. assert (Hz : zlen l = 2 ^ given).
  { unfold bool_table in H. replace (given <? 0) with false in H by lia. destruct (Z.eqb_spec (zlen l) (wrap64 (rows_of given))) as [E|]; [|discriminate].
    unfold rows_of in E. replace ((given <? 0) || (64 <=? given)) with false in E by lia.
    destruct (Z.eq_dec given 63) as [->|]. { change (wrap64 (2 ^ 63)) with (- 2 ^ 63) in E. unfold zlen in E. lia. }
    rewrite E. unfold wrap64. rewrite Z.mod_small; [lia|]. assert (2 ^ given <= 2 ^ 62) by (apply pow_mono_le; lia). assert (2 ^ 62 + 2 ^ 63 < 2 ^ 64) by reflexivity. assert (0 < 2 ^ 63) by reflexivity. lia. }
  rewrite bool_table_ok in H; auto; try lia. { injection H as <-. rewrite <- Hz. apply flat_truth. }
Qed.

Lemma float_good l given t : 0 <= given <= 63 -> In l [[n1; n0; nhalf; nhalf]; [nhalf; nhalf; n1; n0]; [n0; n1; nhalf; nhalf]; [nhalf; nhalf; n0; n1]] ->
  float_table l given = Ok t -> good_table (2 ^ given) 2 t.
Proof.
  intros Hg Hl H. assert (L : zlen l = 4). { destruct Hl as [<-|[<-|[<-|[<-|[]]]]]; reflexivity. }
  unfold float_table in H. replace (given + 1 <? 0) with false in H by lia. rewrite L in H.
  destruct (Z.eqb_spec 4 (wrap64 (rows_of (given + 1)))) as [E|]; [|discriminate]. injection H as <-.
  assert (given = 1) as ->.
  { pose proof (all_upto (fun g => (g =? 1) || negb (4 =? wrap64 (rows_of (g + 1)))) 64 ltac:(vm_compute; reflexivity) given ltac:(lia)) as H. cbv beta in H.
    rewrite <- E, Z.eqb_refl, orb_false_r in H. lia. }
  assert (G : forall r1 r2 : list A, valid_row 2 r1 -> valid_row 2 r2 -> good_table (2 ^ 1) 2 (r1 ++ r2)).
  { intros r1 r2 H1 H2. exists [r1; r2]. simpl. rewrite app_nil_r. split; auto. split; auto. intros r [<-|[<-|[]]]; auto. }
  destruct Hl as [<-|[<-|[<-|[<-|[]]]]].
  - apply (G (truth true) unknown); [apply valid_truth|apply valid_unknown].
  - apply (G unknown (truth true)); [apply valid_unknown|apply valid_truth].
  - apply (G (truth false) unknown); [apply valid_truth|apply valid_unknown].
  - apply (G unknown (truth false)); [apply valid_unknown|apply valid_truth].
Qed.

(** Outcome operators: wrapped indices. *)
Definition int64 (x : Z) : Prop := - 2 ^ 63 <= x < 2 ^ 63.

Lemma wrap_even x : exists j, wrap64 (x * 2) = j * 2 /\ wrap64 (x * 2 + 1) = j * 2 + 1.
Proof.
  unfold wrap64. exists ((x + 2 ^ 62) mod 2 ^ 63 - 2 ^ 62).
  assert (E1 : (x * 2 + 2 ^ 63) mod 2 ^ 64 = ((x + 2 ^ 62) mod 2 ^ 63) * 2).
  { replace (x * 2 + 2 ^ 63) with ((x + 2 ^ 62) * 2) by (change (2 ^ 63) with (2 ^ 62 * 2); ring). change (2 ^ 64) with (2 ^ 63 * 2). rewrite Z.mul_mod_distr_r; [auto|discriminate|discriminate]. }
  split.
  - rewrite E1. change (2 ^ 63) with (2 ^ 62 * 2) at 2. ring.
  - pose proof (Z.mod_pos_bound (x + 2 ^ 62) (2 ^ 63) ltac:(reflexivity)) as B.
    pose proof (Z.div_mod (x + 2 ^ 62) (2 ^ 63) ltac:(discriminate)) as D.
    rewrite <- (Zmod_unique (x * 2 + 1 + 2 ^ 63) (2 ^ 64) ((x + 2 ^ 62) / 2 ^ 63) (((x + 2 ^ 62) mod 2 ^ 63) * 2 + 1)).
    + change (2 ^ 63) with (2 ^ 62 * 2) at 2. ring.
    + change (2 ^ 64) with (2 ^ 63 * 2). lia.
    + change (2 ^ 64) with (2 ^ 63 * 2). change (2 ^ 63) with (2 * 2 ^ 62) at 1. lia.
Qed.

Lemma sset_range (l : list A) i v t : sset l i v = Ok t -> 0 <= i < zlen l.
Proof. unfold sset, zlen. destruct (_ || _) eqn:E; [discriminate|]. lia. Qed.

Lemma blocks_zlen (g : Z -> list A) len : 0 <= len -> (forall k, List.length (g k) = 2%nat) -> zlen (flat_map g (zrange 0 len)) = len * 2.
Proof.
  intros Hl Hg. unfold zlen. assert (E : forall L, List.length (flat_map g L) = (2 * List.length L)%nat). { induction L as [|x L IH]; simpl; auto. rewrite app_length, Hg, IH. lia. }
  rewrite E, zrange_length. lia.
Qed.

Lemma pair_set_any (g : Z -> list A) len idx a b t : (forall k, List.length (g k) = 2%nat) -> 0 <= len -> len * 2 <= 2 ^ 45 ->
  (let! t := sset (flat_map g (zrange 0 len)) (wrap64 (idx * 2)) a in sset t (wrap64 (idx * 2 + 1)) b) = Ok t ->
  exists j, 0 <= j < len /\ t = flat_map (fun k => if k =? j then [a; b] else g k) (zrange 0 len).
Proof.
  intros Hg Hl Hf H. destruct (wrap_even idx) as (j & E1 & E2). rewrite E1, E2 in H.
  assert (Hj : 0 <= j < len). { destruct (sset (flat_map g (zrange 0 len)) (j * 2) a) as [t0| |] eqn:E; try discriminate. apply sset_range in E. rewrite blocks_zlen in E by auto. lia. }
  exists j. split; auto. assert (2 ^ 45 < 2 ^ 46) by reflexivity. pose proof (pair_set g len j a b Hg Hj Hf) as P. rewrite !wrap64_small in P by lia. rewrite P in H. injection H as <-. auto.
Qed.

Lemma outcome_len_fits len : 0 <= len -> int64 len -> forall t : list A, make_floats (wrap64 (len * 2)) = Ok t -> len * 2 <= 2 ^ 45.
Proof.
  intros Hl Hi t H. apply make_size in H. destruct H as [H _]. unfold int64 in Hi.
  destruct (Z.lt_ge_cases len (2 ^ 62)).
  - unfold wrap64 in H. rewrite Z.mod_small in H; [lia|]. assert (2 ^ 62 * 2 = 2 ^ 63) by reflexivity. assert (2 ^ 63 * 2 = 2 ^ 64) by reflexivity. lia.
  - exfalso. unfold wrap64 in H. rewrite <- (Zmod_unique (len * 2 + 2 ^ 63) (2 ^ 64) 1 (len * 2 + 2 ^ 63 - 2 ^ 64)) in H.
    + assert (2 ^ 63 * 2 = 2 ^ 64) by reflexivity. lia.
    + assert (2 ^ 62 * 2 = 2 ^ 63) by reflexivity. assert (2 ^ 63 * 2 = 2 ^ 64) by reflexivity. lia.
    + lia.
Qed.

Lemma start_fits len given t (k : list A -> gores (list A)) : 0 <= len -> int64 len -> (let! t0 := outcome_start len given in k t0) = Ok t ->
  given = 1 /\ len * 2 <= 2 ^ 45 /\ k (flat_map (fun _ => repeat (n0 : A) 2) (zrange 0 len)) = Ok t.
Proof.
  intros Hl Hi H. destruct (outcome_start len given) as [t0| |] eqn:E; try discriminate. unfold outcome_start in E. destruct (Z.eqb_spec given 1) as [->|]; [|discriminate].
  cbn [negb] in E. pose proof (outcome_len_fits len Hl Hi t0 E) as F. split; auto. split; auto.
  pose proof (start_ok len Hl F) as S. unfold outcome_start in S. change (negb (1 =? 1)) with false in S. cbv iota in S. rewrite S in E. injection E as <-. exact H.
Qed.

Lemma column_range off (T : list A) lo hi t : fill_column off T lo hi = Ok t -> lo < hi -> 0 <= off < 2 -> 0 <= lo /\ hi * 2 - 2 + off < zlen T.
Proof.
  unfold fill_column. intros H Hlt Ho. assert (G : forall L T t, foldM (fun table i => sset table (i * 2 + off) n1) T L = Ok t -> forall i : Z, In i L -> 0 <= i * 2 + off < zlen (T : list A)).
  { clear. induction L as [|x L IH]; intros T t H i [].
    - subst x. cbn [foldM] in H. destruct (sset T (i * 2 + off) n1) as [T'| |] eqn:E; try discriminate. apply sset_range in E. auto.
    - cbn [foldM] in H. destruct (sset T (x * 2 + off) n1) as [T'| |] eqn:E; try discriminate. cbn [gbind] in H.
      assert (zlen T' = zlen T) as <-. { unfold sset in E. destruct (_ || _); [discriminate|]. injection E as <-. unfold zlen. rewrite upd_nth_length. auto. } eapply IH; eauto. }
  split.
  - assert (0 <= lo * 2 + off) by (apply (G _ _ _ H lo), zrange_In; lia). lia.
  - assert ((hi - 1) * 2 + off < zlen T) by (apply (G _ _ _ H (hi - 1)), zrange_In; lia). lia.
Qed.

Lemma less_idx (T : list A) a b idx len t : zlen T = len * 2 -> 0 <= len -> 0 <= a < 2 -> 0 <= b < 2 ->
  (let! T' := fill_column a T 0 idx in fill_column b T' idx len) = Ok t -> 0 <= idx <= len.
Proof.
  intros Hz Hl Ha Hb H. destruct (fill_column a T 0 idx) as [T'| |] eqn:E; try discriminate. cbn [gbind] in H. split.
  - destruct (Z.lt_ge_cases idx len); [|lia]. apply (column_range _ _ _ _ _ H); auto.
  - destruct (Z.lt_ge_cases 0 idx); [|lia]. apply column_range in E; auto. lia.
Qed.

Definition known_outcomes (l : lfactor A) : Prop :=
  match l with
  | LOutcomeIs _ n | LOutcomeIsNot _ n | LOutcomeEither _ n | LOutcomeLess _ n | LOutcomeGreater _ n => 0 <= n /\ int64 n
  | _ => True
  end.

Lemma pick_two (g : Z -> list A) (len j : Z) a b : (forall k, valid_row 2 (g k)) -> valid_row 2 [a; b] -> 0 <= len ->
  good_table len 2 (flat_map (fun k => if k =? j then [a; b] else g k) (zrange 0 len)).
Proof. intros Hg Hab Hl. apply (good_by_outcome len 2 (fun k => if k =? j then [a; b] else g k)); auto. intros k _. destruct (k =? j); auto. Qed.

Theorem operator_tables name l0 args l given t : In (name, l0) factors -> set_args l0 args = Ok l -> known_outcomes l -> 0 <= given <= 63 ->
  table l given = Ok t -> good_table (op_rows l given) (op_columns l given) t.
Proof.
  intros Hin Hs Hk Hg Ht.
  assert (Hb : match l with LBool b => zlen b <= 4 | LFloat f => In f [[n1; n0; nhalf; nhalf]; [nhalf; nhalf; n1; n0]; [n0; n1; nhalf; nhalf]; [nhalf; nhalf; n0; n1]] | _ => True end).
  { assert (H0 : match l0 with LBool b => zlen b <= 4 | LFloat f => In f [[n1; n0; nhalf; nhalf]; [nhalf; nhalf; n1; n0]; [n0; n1; nhalf; nhalf]; [nhalf; nhalf; n0; n1]] | _ => True end).
    { clear Hs. unfold factors in Hin. repeat (destruct Hin as [E|Hin]; [injection E as _ <-; unfold zlen; simpl; solve [auto 10|lia]|]). destruct Hin. }
    destruct l0; destruct args as [|x [|y [|z args]]]; try discriminate; injection Hs as <-; auto. }
  clear Hin Hs. destruct l; cbn [table op_rows op_columns] in *.
  - eapply bool_good; eauto.
  - eapply float_good; eauto.
  - assert (F : 2 ^ given * 2 ^ given <= 2 ^ 45).
    { unfold bits_table in Ht. refine (more_fit _ given _ _ t Hg _ (bits_sizes given ltac:(lia)) _). 2:{ revert Ht. unfold rows_of. replace ((given <? 0) || (64 <=? given)) with false by lia. intros E; exact E. }
      intros t'. apply sset_nil. }
    rewrite bits_table_ok in Ht by (auto; lia). injection Ht as <-. apply good_by; [lia|]. intros p Hp. left. exists (bits_value p). split; auto. apply bits_value_range; auto; lia.
  - assert (F : 2 ^ given * 2 <= 2 ^ 45). { unfold count_table in Ht. eapply two_fit; [exact Hg| |exact Ht]. intros t'. apply set_row_nil. }
    rewrite count_table_ok in Ht by (auto; lia). injection Ht as <-. apply good_by; [lia|]. intros. apply valid_truth.
  - assert (F : 2 ^ given * (given + 1) <= 2 ^ 45).
    { unfold count_true_table in Ht. refine (more_fit _ given _ _ t Hg _ (count_sizes given ltac:(lia)) _). 2:{ revert Ht. unfold rows_of at 1. replace ((given <? 0) || (64 <=? given)) with false by lia. intros E; exact E. }
      intros t'. apply sset_nil. }
    rewrite count_true_table_ok in Ht by (auto; lia). injection Ht as <-. apply good_by; [lia|]. intros p Hp. left. exists (count_true p). split; auto. unfold count_true, zlen.
    pose proof (filter_len (fun b => b) p). lia.
  - assert (F : 2 ^ given * (given + 1) <= 2 ^ 45).
    { unfold count_false_table in Ht. refine (more_fit _ given _ _ t Hg _ (count_sizes given ltac:(lia)) _). 2:{ revert Ht. unfold rows_of at 1. replace ((given <? 0) || (64 <=? given)) with false by lia. intros E; exact E. }
      intros t'. apply sset_nil. }
    rewrite count_false_table_ok in Ht by (auto; lia). injection Ht as <-. apply good_by; [lia|]. intros p Hp. left. exists (count_false p). split; auto. unfold count_false, zlen.
    pose proof (filter_len negb p). lia.
  - assert (Hi : 0 <= idx). { destruct (Z.lt_ge_cases idx 0); auto. exfalso. revert Ht. apply negative_index; [lia|]. intros T i t'. unfold bit_clear. replace (idx <? 0) with true by lia. discriminate. }
    assert (F : 2 ^ given * 2 <= 2 ^ 45). { unfold given_table in Ht. eapply two_fit; [exact Hg| |exact Ht]. intros t'. unfold bit_clear. replace (idx <? 0) with false by lia. apply set_row_nil. }
    rewrite given_table_ok in Ht by (auto; lia). injection Ht as <-. apply good_by; [lia|]. intros. apply valid_truth.
  - assert (Hi : 0 <= idx). { destruct (Z.lt_ge_cases idx 0); auto. exfalso. revert Ht. apply negative_index; [lia|]. intros T i t'. unfold bit_clear. replace (idx <? 0) with true by lia. discriminate. }
    assert (F : 2 ^ given * 2 <= 2 ^ 45). { unfold given_not_table in Ht. eapply two_fit; [exact Hg| |exact Ht]. intros t'. unfold bit_clear. replace (idx <? 0) with false by lia. apply set_row_nil. }
    rewrite given_not_table_ok in Ht by (auto; lia). injection Ht as <-. apply good_by; [lia|]. intros. apply valid_truth.
  - assert (Hi : 0 <= idx). { destruct (Z.lt_ge_cases idx 0); auto. exfalso. revert Ht. apply negative_index; [lia|]. intros T i t'. unfold bit_clear. replace (idx <? 0) with true by lia. discriminate. }
    assert (F : 2 ^ given * 2 <= 2 ^ 45). { unfold given_excl_table in Ht. eapply two_fit; [exact Hg| |exact Ht]. intros t'. unfold bit_clear. replace (idx <? 0) with false by lia. cbn [gbind].
      destruct (negb (negb _)); apply set_row_nil. }
    rewrite given_excl_table_ok in Ht by (auto; lia). injection Ht as <-. apply good_by; [lia|]. intros. apply valid_truth.
  - destruct Hk as [Hk1 Hk2]. apply start_fits in Ht; auto. destruct Ht as (-> & F & Ht). rewrite column_ok in Ht by (auto; lia). cbn [gbind] in Ht.
    apply pair_set_any in Ht; auto. 2:{ intros k. destruct (_ && _); auto. } destruct Ht as (j & Hj & ->).
    rewrite (flat_map_ext_in _ (fun k => if k =? j then [n1; n0] else truth (A := A) false)); [apply pick_two; auto; [intros _; apply (valid_truth false)|apply (valid_truth true)]|].
    intros k Hr. apply zrange_In in Hr. replace ((0 <=? k) && (k <? len)) with true by lia. auto.
  - destruct Hk as [Hk1 Hk2]. apply start_fits in Ht; auto. destruct Ht as (-> & F & Ht). rewrite column_ok in Ht by (auto; lia). cbn [gbind] in Ht.
    apply pair_set_any in Ht; auto. 2:{ intros k. destruct (_ && _); auto. } destruct Ht as (j & Hj & ->).
    rewrite (flat_map_ext_in _ (fun k => if k =? j then [n0; n1] else truth (A := A) true)); [apply pick_two; auto; [intros _; apply (valid_truth true)|apply (valid_truth false)]|].
    intros k Hr. apply zrange_In in Hr. replace ((0 <=? k) && (k <? len)) with true by lia. auto.
  - destruct Hk as [Hk1 Hk2]. apply start_fits in Ht; auto. destruct Ht as (-> & F & Ht). rewrite column_ok in Ht by (auto; lia). cbn [gbind] in Ht.
    rewrite (flat_map_ext_in _ (fun k => truth (A := A) ((fun _ => false) k))) in Ht.
    2:{ intros k Hr. apply zrange_In in Hr. replace ((0 <=? k) && (k <? len)) with true by lia. auto. }
    assert (G : forall L (done : Z -> bool) t, foldM (fun table idx => let! table := sset table (wrap64 (idx * 2)) n1 in sset table (wrap64 (idx * 2 + 1)) n0)
       (flat_map (fun k => truth (A := A) (done k)) (zrange 0 len)) L = Ok t -> good_table len 2 t).
    { clear Ht t. induction L as [|i L IH]; intros done t H; cbn [foldM] in H.
      - injection H as <-. apply (good_by_outcome len 2); auto. intros. apply valid_truth.
      - destruct (gbind (sset _ _ _) _) as [t'| |] eqn:E; try discriminate. apply pair_set_any in E; auto. 2:{ intros k; destruct (done k); auto. } destruct E as (j & _ & ->). cbn [gbind] in H.
        apply (IH (fun k => (k =? j) || done k)). rewrite <- H. f_equal. apply flat_map_ext_in. intros k _. destruct (k =? j); auto. }
    eapply G. exact Ht.
  - destruct Hk as [Hk1 Hk2]. apply start_fits in Ht; auto. destruct Ht as (-> & F & Ht).
    assert (Hi : 0 <= idx <= len). { eapply less_idx; [| | | |exact Ht]; auto; try lia. apply blocks_zlen; auto. }
    pose proof (outcome_less_ok (A := A) idx len Hi F) as E. unfold outcome_less_table in E. rewrite start_ok in E by auto. cbn [gbind] in E. rewrite E in Ht. injection Ht as <-.
    apply good_by_outcome; auto. intros. apply valid_truth.
  - destruct Hk as [Hk1 Hk2]. apply start_fits in Ht; auto. destruct Ht as (-> & F & Ht).
    assert (Hi : 0 <= idx <= len). { eapply less_idx; [| | | |exact Ht]; auto; try lia. apply blocks_zlen; auto. }
    pose proof (outcome_greater_ok (A := A) idx len Hi F) as E. unfold outcome_greater_table in E. rewrite start_ok in E by auto. cbn [gbind] in E. rewrite E in Ht. injection Ht as <-.
    apply good_by_outcome; auto. intros. apply valid_truth.
Qed.

Theorem named_tables name args given t : In name (map fst (factors (A := A))) -> (forall a, In a args -> int64 a) ->
  (In name outcome_operators -> 0 <= last args 0) -> 0 <= given <= 63 -> fst (use_operator (A := A) factors name args given) = Ok t ->
  good_table (node_rows name args given) (node_columns name given) t.
Proof.
  intros Hin Ha Hn Hg Ht. apply in_map_iff in Hin. destruct Hin as ([nm l0] & E & Hin). simpl in E. subst nm.
  assert (Hget : logic_get factors name = Some l0).
  { revert Hin. unfold factors. intros Hin. repeat (destruct Hin as [E|Hin]; [injection E as <- <-; reflexivity|]). destruct Hin. }
  unfold use_operator, reg_set_args in Ht. rewrite Hget in Ht. destruct (set_args l0 args) as [l| |] eqn:Es; try discriminate.
  cbn [fst gbind] in Ht. unfold reg_table, logic_get in Ht. rewrite (mget_mset_same _ String.eqb_eq) in Ht.
  assert (Hl : args <> [] -> int64 (last args 0)). { intros Hne. apply Ha. destruct (exists_last Hne) as (l' & x & ->). rewrite last_last. apply in_or_app. right. left. auto. }
  assert (K : known_outcomes l /\ op_rows l given = node_rows name args given /\ op_columns l given = node_columns name given).
  { clear Hget Ht. unfold factors in Hin.
    repeat (destruct Hin as [E|Hin];
      [injection E as <- <-; destruct args as [|x [|y [|z args]]]; try discriminate Es; injection Es as <-; split; try exact I; try (split; reflexivity);
       try (split; [apply Hn; simpl; tauto|apply Hl; discriminate])|]). destruct Hin. }
  destruct K as (K1 & K2 & K3). rewrite <- K2, <- K3. eapply operator_tables; eauto.
Qed.

(** Outcomes of out-of-range arguments. *)
Theorem given_negative idx given : idx < 0 -> 0 <= given -> 2 ^ given * 2 <= 2 ^ 45 ->
  given_table (A := A) idx given = Panic PShift /\ given_not_table (A := A) idx given = Panic PShift /\ given_excl_table (A := A) idx given = Panic PShift.
Proof.
  intros Hi Hg Hf. destruct (fits_small given 2 Hg ltac:(lia) Hf) as (H1 & H2 & H3). unfold given_table, given_not_table, given_excl_table.
  rewrite H2, u64_small, make_ok by lia. cbn [gbind]. rewrite zrange_cons by lia. cbn [foldM]. unfold bit_clear. replace (idx <? 0) with true by lia. auto.
Qed.

(** Sequential use *)
Definition same_kind (l l0 : lfactor A) : Prop := forall args, set_args l args = set_args l0 args.
Lemma set_args_kind l args l' : set_args l args = Ok l' -> same_kind l' l.
Proof. intros H more. destruct l, args as [|x [|y [|z args]]]; try discriminate; injection H as <-; auto; destruct more as [|? [|? [|? ?]]]; auto. Qed.

Definition like_new (reg : list (string * lfactor A)) : Prop :=
  forall name, match logic_get reg name, logic_get factors name with
               | Some l, Some l0 => same_kind l l0
               | None, None => True
               | _, _ => False
               end.
Lemma like_new_start : like_new factors.
Proof. intros name. destruct (logic_get factors name); auto. intros args. auto. Qed.
Lemma reg_set_like reg name args : like_new reg -> like_new (snd (reg_set_args reg name args)).
Proof.
  intros H. unfold reg_set_args. destruct (logic_get reg name) as [l|] eqn:E; [|exact H]. destruct (set_args l args) as [l'| |] eqn:E2; try exact H. cbn [snd].
  intros nm. pose proof (H nm) as Hn. unfold logic_get in *. destruct (String.eqb_spec nm name) as [->|Hne].
  - rewrite (mget_mset_same _ String.eqb_eq). rewrite E in Hn. destruct (mget String.eqb factors name); auto. intros more. rewrite (set_args_kind _ _ _ E2). apply Hn.
  - rewrite (mget_mset_other _ String.eqb_eq); auto.
Qed.
Lemma run_calls_like calls : forall reg, like_new reg -> like_new (snd (run_calls reg calls)).
Proof.
  induction calls as [|[name args|name given] calls IH]; intros reg H; cbn [run_calls]; auto.
  - apply IH, reg_set_like, H.
  - specialize (IH reg H). destruct (run_calls reg calls). exact IH.
Qed.
Theorem sequential_use reg name args given : like_new reg -> fst (use_operator reg name args given) = fst (use_operator (A := A) factors name args given).
Proof.
  intros H. unfold use_operator, reg_set_args. specialize (H name). destruct (logic_get reg name) as [l|] eqn:E1, (logic_get factors name) as [l0|] eqn:E2; try tauto; auto.
  rewrite H. destruct (set_args l0 args) as [l'| |] eqn:E; auto. cbn [fst gbind]. unfold reg_table, logic_get. rewrite !(mget_mset_same _ String.eqb_eq). auto.
Qed.
End Shape.
