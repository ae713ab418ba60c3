(** What the trainer's counters and the trained tables contain. *)
From Coq Require Import ZArith List Bool String Lia Permutation.
From Verif Require Import Num GoBase VarModel Tuples GoFacts VEModel NetModel SpecNet NetNew NetRow TrainModel SpecTrain.
Import ListNotations.
Open Scope string_scope.
Open Scope list_scope.
Open Scope Z_scope.

Lemma numbered_at {X} (l : list X) i : nth_error (combine (zrange 0 (zlen l)) l) i = option_map (fun x => (Z.of_nat i, x)) (nth_error l i).
Proof.
  assert (G : forall l i s, nth_error (combine (zrange s (s + zlen l)) l) i = option_map (fun x : X => (s + Z.of_nat i, x)) (nth_error l i)).
  { clear. induction l as [|x l IH]; intros i s.
    - unfold zlen. simpl. rewrite Z.add_0_r. destruct (zrange s s); destruct i; auto.
    - unfold zlen. cbn [List.length]. rewrite Nat2Z.inj_succ. rewrite zrange_cons by lia. cbn [combine]. destruct i as [|i]; cbn [nth_error].
      + simpl. f_equal. f_equal. lia.
      + specialize (IH i (s + 1)). replace (s + 1 + zlen l) with (s + Z.succ (Z.of_nat (List.length l))) in IH by (unfold zlen; lia). rewrite IH.
        destruct (nth_error l i); simpl; auto. do 2 f_equal. lia. }
  rewrite <- (Z.add_0_l (zlen l)). rewrite G. destruct (nth_error l i); auto.
Qed.

Lemma numbered_len {X} (l : list X) : List.length (combine (zrange 0 (zlen l)) l) = List.length l.
Proof. rewrite combine_length. unfold zrange. rewrite map_length, seq_length. unfold zlen. lia. Qed.

Lemma zrange_nat m : zrange 0 (Z.of_nat m) = map Z.of_nat (seq 0 m).
Proof. unfold zrange. rewrite Z.sub_0_r, Nat2Z.id. apply map_ext. intros. lia. Qed.

Section Train.
Context {A : Type} {N : NumOps A}.
Variable n : network A.
Hypothesis Hta : trainable n.
Notation vars := (n_vars n).

Definition fac (v : nvar) : nfactor A :=
  match nv_factor v with
  | Some k => match nth_error (n_factors n) k with Some f => f | None => mkNFactor "" [] None [] 0 end
  | None => mkNFactor "" [] None [] 0
  end.
Definition cols (v : nvar) : nat := List.length (nv_outcomes v).
Definition rows (v : nvar) : nat := if nodeType_eqb (nv_type v) Decision then 0%nat else table_size vars (nf_given (fac v)).

Lemma own_fac v f : own_factor n v f -> f = fac v.
Proof. intros (k & H1 & H2). unfold fac. rewrite H1, H2. auto. Qed.

Lemma fac_spec v : In v vars -> node_factor n v = Ok (fac v) /\ own_factor n v (fac v) /\ nf_for (fac v) = nv_name v /\
  nf_outcomes (fac v) = map (fun g => Z.of_nat (num_outcomes vars g)) (nf_given (fac v)) /\ nf_columns (fac v) = Z.of_nat (cols v) /\
  (0 < cols v)%nat /\ (forall g, In g (nf_given (fac v)) -> exists p, In p vars /\ nv_name p = g) /\
  List.length (slice_of (nf_table (fac v))) = (rows v * cols v)%nat.
Proof.
  intros Hv. destruct (ta_factor n Hta v Hv) as (f & Ho & H1 & H2 & H3 & H4 & H5 & H6). pose proof (own_fac v f Ho) as E.
  assert (Hc : (0 < cols v)%nat). { unfold cols. pose proof (ta_outcomes n Hta v Hv). destruct (nv_outcomes v); [tauto|simpl; lia]. }
  assert (Hn : node_factor n v = Ok f). { destruct Ho as (k & E1 & E2). unfold node_factor. rewrite E1, E2. auto. }
  rewrite <- E. split; auto. split; auto. split; auto. split; auto. split; auto. split; auto. split; auto.
  unfold rows. rewrite <- E. destruct (nodeType_eqb (nv_type v) Decision) eqn:Et.
  - rewrite H5; auto. destruct (nv_type v); auto; discriminate.
  - rewrite H6; [|intros D; rewrite D in Et; discriminate]. clear - Hv H1 Hta. unfold table_size. rewrite fold_right_app. cbn [fold_right]. rewrite Nat.mul_1_r.
    assert (E : num_outcomes vars (nf_for f) = cols v). { unfold num_outcomes, cols. rewrite H1, (var_named_in' _ v); auto. apply ta_names; auto. }
    rewrite E. induction (nf_given f) as [|g l IH]; cbn [fold_right]; [lia|]. rewrite IH. lia.
Qed.

(** Positions *)
Lemma position_spec v : In v vars -> nth_error vars (position vars (nv_name v)) = Some v.
Proof.
  intros Hv. unfold position. destruct (index_func_spec (fun w => String.eqb (nv_name w) (nv_name v)) vars) as [[_ H]|(k & x & E & H1 & H2 & _)].
  - specialize (H v Hv). rewrite String.eqb_refl in H. discriminate.
  - rewrite E, Nat2Z.id, H1. f_equal. apply String.eqb_eq in H2. pose proof (ta_names n Hta) as Hn. apply nth_error_In in H1.
    pose proof (var_named_in' _ x Hn H1) as E1. pose proof (var_named_in' _ v Hn Hv) as E2. rewrite H2 in E1. congruence.
Qed.
Lemma position_at i v : nth_error vars i = Some v -> position vars (nv_name v) = i.
Proof.
  intros H. pose proof (position_spec v (nth_error_In _ _ H)) as P. pose proof (ta_names n Hta) as Hn. rewrite NoDup_nth_error in Hn. apply Hn.
  - apply nth_error_Some. rewrite nth_error_map, P. discriminate.
  - rewrite !nth_error_map, P, H. auto.
Qed.

Lemma node_indices_spec v : In v vars -> sget_map (node_indices vars) (nv_name v) = Some (Z.of_nat (position vars (nv_name v))).
Proof.
  intros Hv. unfold node_indices.
  assert (G : forall l m s, NoDup (map (fun iv : Z * nvar => nv_name (snd iv)) l) -> (s = 0) ->
     (forall i w, In (i, w) l -> sget_map (fold_left (fun m '((i, v) : Z * nvar) => sset_map m (nv_name v) i) l m) (nv_name w) = Some i) /\
     (forall x, ~ In x (map (fun iv : Z * nvar => nv_name (snd iv)) l) -> sget_map (fold_left (fun m '((i, v) : Z * nvar) => sset_map m (nv_name v) i) l m) x = sget_map m x)).
  { induction l as [|[i w] l IH]; intros m s Hnd Hs; [split; [intros ? ? []|auto]|]. cbn [map snd] in Hnd. inversion Hnd as [|? ? Hnot Hnd']; subst.
    destruct (IH (sset_map m (nv_name w) i) 0 Hnd' eq_refl) as [I1 I2]. cbn [fold_left]. split.
    - intros j u [E|Hin].
      + injection E as -> ->. rewrite I2 by auto. apply (mget_mset_same _ String.eqb_eq).
      + apply I1; auto.
    - intros x Hx. cbn [map snd In] in Hx. rewrite I2 by tauto. apply (mget_mset_other _ String.eqb_eq). tauto. }
  assert (Hin : In (Z.of_nat (position vars (nv_name v)), v) (combine (zrange 0 (zlen vars)) vars)).
  { eapply nth_error_In. rewrite numbered_at, (position_spec v Hv). reflexivity. }
  apply (G _ [] 0); auto. assert (E : map (fun iv : Z * nvar => nv_name (snd iv)) (combine (zrange 0 (zlen vars)) vars) = map nv_name vars).
  { apply nth_error_ext. intros i. rewrite !nth_error_map, numbered_at. destruct (nth_error vars i); auto. }
  rewrite E. apply ta_names; auto.
Qed.

(** ** What is counted *)
Notation sample := (list Z * option (list A))%type.
Definition row_num (given : list string) (smp : sample) : nat :=
  flat (map (num_outcomes vars) given) (map (fun g => Z.to_nat (observed vars smp g)) given).
Definition known_parents (given : list string) (smp : sample) : bool := forallb (fun g => 0 <=? observed vars smp g) given.
Definition hits (v : nvar) (j : nat) (smp : sample) : bool := known_parents (nf_given (fac v)) smp && (row_num (nf_given (fac v)) smp =? j)%nat.
Definition is_utility (v : nvar) : bool := nodeType_eqb (nv_type v) Utility.
Definition has_value (v : nvar) (smp : sample) : bool :=
  if is_utility v then negb (nisnan (reported vars smp (nv_name v))) else 0 <=? observed vars smp (nv_name v).
Definition hit_count (v : nvar) (j : nat) (samples : list sample) : Z :=
  (if is_utility v then 2 else 1) * count_of (fun smp => hits v j smp && has_value v smp) samples.
Definition hit_sum (v : nvar) (j k : nat) (samples : list sample) : A :=
  if is_utility v then
    if (k =? 0)%nat then fold_left nadd (map (fun smp => reported vars smp (nv_name v)) (filter (fun smp => hits v j smp && has_value v smp) samples)) n0 else n0
  else fold_left (fun x _ => nadd x n1) (filter (fun smp => hits v j smp && (observed vars smp (nv_name v) =? Z.of_nat k)) samples) n0.

Lemma hit_count_snoc v j samples smp : hit_count v j (samples ++ [smp]) =
  hit_count v j samples + (if hits v j smp && has_value v smp then if is_utility v then 2 else 1 else 0).
Proof.
  unfold hit_count, count_of, zlen. rewrite filter_app, app_length. cbn [filter]. destruct (hits v j smp && has_value v smp); cbn [List.length]; destruct (is_utility v); lia.
Qed.
Lemma hit_sum_snoc v j k samples smp : hit_sum v j k (samples ++ [smp]) =
  if is_utility v then
    if (k =? 0)%nat && (hits v j smp && has_value v smp) then nadd (hit_sum v j k samples) (reported vars smp (nv_name v)) else hit_sum v j k samples
  else if hits v j smp && (observed vars smp (nv_name v) =? Z.of_nat k) then nadd (hit_sum v j k samples) n1 else hit_sum v j k samples.
Proof.
  unfold hit_sum. destruct (is_utility v).
  - destruct (k =? 0)%nat; [|auto]. cbn [andb]. rewrite filter_app, map_app, fold_left_app. cbn [filter]. destruct (hits v j smp && has_value v smp); auto.
  - rewrite filter_app, fold_left_app. cbn [filter]. destruct (hits v j smp && _); auto.
Qed.

Definition grid (r c : nat) (F : nat -> nat -> A) : list (list A) := map (fun j => map (F j) (seq 0 c)) (seq 0 r).
Lemma nth_map_seq {X} (F : nat -> X) m i : (i < m)%nat -> nth_error (map F (seq 0 m)) i = Some (F i).
Proof. intros H. rewrite nth_error_map. rewrite (nth_error_nth' _ 0%nat) by (rewrite seq_length; auto). rewrite seq_nth by auto. auto. Qed.
Lemma upd_map_seq {X} (F G : nat -> X) m i x : (i < m)%nat -> G i = x -> (forall j, j <> i -> (j < m)%nat -> G j = F j) ->
  upd_nth (map F (seq 0 m)) i x = map G (seq 0 m).
Proof.
  intros Hi Hx Ho. apply nth_error_ext. intros j. destruct (Nat.eq_dec j i) as [->|Hne].
  - rewrite upd_nth_same by (rewrite map_length, seq_length; auto). rewrite nth_map_seq by auto. congruence.
  - rewrite upd_nth_other by auto. destruct (Nat.lt_ge_cases j m).
    + rewrite !nth_map_seq by auto. rewrite Ho; auto.
    + assert (E : forall Y (K : nat -> Y), nth_error (map K (seq 0 m)) j = None). { intros. apply nth_error_None. rewrite map_length, seq_length. auto. } rewrite !E. auto.
Qed.

(** The state of the trainer after the samples [h i] for variable number [i]. *)
Record counted (h : nat -> list sample) (t : trainer A) : Prop := {
  ct_data_len : List.length (tr_data t) = List.length vars;
  ct_count_len : List.length (tr_counter t) = List.length vars;
  ct_data : forall i v, nth_error vars i = Some v -> nth_error (tr_data t) i = Some (grid (rows v) (cols v) (fun j k => hit_sum v j k (h i)));
  ct_count : forall i v, nth_error vars i = Some v -> nth_error (tr_counter t) i = Some (map (fun j => hit_count v j (h i)) (seq 0 (rows v)));
  ct_indices : tr_indices t = map (fun v => map (fun g => Z.of_nat (position vars g)) (nf_given (fac v))) vars
}.

Lemma counted_unique h t t' : counted h t -> counted h t' -> t = t'.
Proof.
  intros [A1 A2 A3 A4 A5] [B1 B2 B3 B4 B5]. destruct t as [d c x], t' as [d' c' x']. simpl in *. f_equal; [| |congruence]; apply nth_error_ext; intros i.
  - destruct (nth_error vars i) as [v|] eqn:E; [rewrite (A3 i v), (B3 i v); auto|]. apply nth_error_None in E. rewrite (proj2 (nth_error_None d i)), (proj2 (nth_error_None d' i)) by lia. auto.
  - destruct (nth_error vars i) as [v|] eqn:E; [rewrite (A4 i v), (B4 i v); auto|]. apply nth_error_None in E. rewrite (proj2 (nth_error_None c i)), (proj2 (nth_error_None c' i)) by lia. auto.
Qed.

(** ** NewTrainer *)
Lemma quot_rows v : In v vars -> Z.quot (zlen (slice_of (nf_table (fac v)))) (Z.of_nat (cols v)) = Z.of_nat (rows v).
Proof.
  intros Hv. destruct (fac_spec v Hv) as (_ & _ & _ & _ & _ & Hc & _ & Hl). unfold zlen. rewrite Hl, Nat2Z.inj_mul. apply Z.quot_mul. lia.
Qed.

Lemma given_position v g : In v vars -> In g (nf_given (fac v)) -> exists p, In p vars /\ nv_name p = g /\ nth_error vars (position vars g) = Some p.
Proof.
  intros Hv Hg. destruct (fac_spec v Hv) as (_ & _ & _ & _ & _ & _ & Hp & _). destruct (Hp g Hg) as (p & Hp1 & Hp2). exists p. split; auto. split; auto. rewrite <- Hp2. apply position_spec. auto.
Qed.

Theorem new_trainer_ok : exists t, new_trainer n = Ok t /\ counted (fun _ => []) t.
Proof.
  unfold new_trainer. rewrite (mapM_ok _ fac) by (intros v Hv; apply fac_spec; auto). cbn [gbind].
  rewrite (mapM_ok _ (fun v => (grid (rows v) (cols v) (fun _ _ => n0), map (fun _ => 0) (seq 0 (rows v)), map (fun g => Z.of_nat (position vars g)) (nf_given (fac v))))).
  - cbn [gbind]. eexists. split; [reflexivity|]. constructor; cbn [tr_data tr_counter tr_indices]; rewrite ?map_map, ?map_length; auto.
    + intros i v Hi. rewrite nth_error_map, Hi. cbn [option_map fst snd]. f_equal. unfold grid. apply map_ext. intros j. apply map_ext. intros k. unfold hit_sum. simpl. destruct (is_utility v), (k =? 0)%nat; auto.
    + intros i v Hi. rewrite nth_error_map, Hi. cbn [option_map fst snd]. f_equal. apply map_ext. intros j. unfold hit_count, count_of. simpl. destruct (is_utility v); auto.
  - intros v Hv. destruct (fac_spec v Hv) as (E & _ & _ & _ & _ & Hc & _ & _). unfold trainer_node. rewrite E. cbn [gbind]. change (zlen (nv_outcomes v)) with (Z.of_nat (cols v)).
    replace (Z.of_nat (cols v) =? 0) with false by lia. rewrite quot_rows by auto. rewrite (mapM_ok _ (fun _ => repeat n0 (cols v))).
    2:{ intros j _. unfold smake. replace (Z.of_nat (cols v) <? 0) with false by lia. rewrite Nat2Z.id. auto. }
    cbn [gbind]. unfold smake. replace (Z.of_nat (rows v) <? 0) with false by lia. cbn [gbind]. rewrite (mapM_ok _ (fun g => Z.of_nat (position vars g))).
    2:{ intros g Hg. destruct (given_position v g Hv Hg) as (p & Hp1 & Hp2 & _). rewrite <- Hp2, node_indices_spec by auto. auto. }
    cbn [gbind]. do 2 f_equal. f_equal.
    + unfold grid. rewrite zrange_nat, map_map. apply map_ext. intros j. clear. generalize 0%nat. induction (cols v) as [|c IH]; intros s; simpl; f_equal; auto.
    + rewrite Nat2Z.id. clear. generalize 0%nat. induction (rows v) as [|c IH]; intros s; simpl; f_equal; auto.
Qed.

(** ** AddSample *)
Section Sample.
Variable smp : sample.
Hypothesis Hsmp : valid_sample vars smp.

Lemma sample_get v : In v vars -> sget (fst smp) (Z.of_nat (position vars (nv_name v))) = Ok (observed vars smp (nv_name v)).
Proof.
  intros Hv. apply sget_ok. unfold observed. apply nth_error_nth'. rewrite (vs_length _ _ Hsmp). apply nth_error_Some. rewrite position_spec by auto. discriminate.
Qed.
Lemma utility_get u v : snd smp = Some u -> In v vars -> sget u (Z.of_nat (position vars (nv_name v))) = Ok (reported vars smp (nv_name v)).
Proof.
  intros E Hv. apply sget_ok. unfold reported. rewrite E. cbn [slice_of]. apply nth_error_nth'. pose proof (vs_utility _ _ Hsmp) as H. rewrite E in H. rewrite H.
  apply nth_error_Some. rewrite position_spec by auto. discriminate.
Qed.

Lemma parents_inb v : In v vars -> known_parents (nf_given (fac v)) smp = true ->
  inb (map (num_outcomes vars) (nf_given (fac v))) (map (fun g => Z.to_nat (observed vars smp g)) (nf_given (fac v))).
Proof.
  intros Hv Hk. destruct (fac_spec v Hv) as (_ & _ & _ & _ & _ & _ & Hp & _). unfold known_parents in Hk. rewrite forallb_forall in Hk.
  unfold inb. induction (nf_given (fac v)) as [|g l IH]; simpl; constructor.
  - destruct (Hp g (or_introl eq_refl)) as (p & Hp1 & <-). pose proof (vs_range _ _ Hsmp p Hp1) as R. specialize (Hk (nv_name p) (or_introl eq_refl)).
    unfold num_outcomes. rewrite (var_named_in' _ p) by (auto; apply ta_names; auto). unfold zlen in R. lia.
  - apply IH; intros g' Hg'; [apply Hk|apply Hp]; simpl; auto.
Qed.

Lemma row_number_flat (l : list string) : (forall g, In g l -> 0 <= observed vars smp g) ->
  row_number (map (fun g => Z.of_nat (num_outcomes vars g)) l) (map (observed vars smp) l) =
  Z.of_nat (flat (map (num_outcomes vars) l) (map (fun g => Z.to_nat (observed vars smp g)) l)).
Proof.
  unfold row_number. intros H.
  assert (G : forall l r, (forall g, In g l -> 0 <= observed vars smp g) ->
    fold_left (fun r '((o, i) : Z * Z) => r * o + i) (combine (map (fun g => Z.of_nat (num_outcomes vars g)) l) (map (observed vars smp) l)) r =
    r * Z.of_nat (prod (map (num_outcomes vars) l)) + Z.of_nat (flat (map (num_outcomes vars) l) (map (fun g => Z.to_nat (observed vars smp g)) l))).
  { clear. induction l as [|g l IH]; intros r H; cbn [map combine fold_left prod flat]; [simpl; lia|]. rewrite IH by (intros; apply H; simpl; auto).
    specialize (H g (or_introl eq_refl)). rewrite !Nat2Z.inj_add, !Nat2Z.inj_mul, Z2Nat.id by auto. lia. }
  rewrite G; auto.
Qed.

Lemma row_index_ok v : In v vars -> nf_row_index (fac v) (map (observed vars smp) (nf_given (fac v))) =
  if known_parents (nf_given (fac v)) smp then Ok (Z.of_nat (row_num (nf_given (fac v)) smp), true) else Ok (0, false).
Proof.
  intros Hv. destruct (fac_spec v Hv) as (_ & _ & _ & Ho & _). rewrite row_index_spec by (rewrite Ho; unfold zlen; rewrite !map_length; auto). rewrite Ho. unfold known_parents.
  destruct (forallb _ _) eqn:E.
  - rewrite forallb_forall in E. replace (existsb _ _) with false.
    + rewrite row_number_flat; auto. intros g Hg. specialize (E g Hg). lia.
    + symmetry. apply not_true_iff_false. rewrite existsb_exists. intros (x & Hx & Hneg). apply in_map_iff in Hx. destruct Hx as (g & <- & Hg). specialize (E g Hg). lia.
  - replace (existsb _ _) with true; auto. symmetry. rewrite existsb_exists. apply not_true_iff_false in E. rewrite forallb_forall in E.
    destruct (existsb (fun g => observed vars smp g <? 0) (nf_given (fac v))) eqn:E2.
    + apply existsb_exists in E2. destruct E2 as (g & Hg & Hneg). exists (observed vars smp g). split; [apply in_map; auto|lia].
    + exfalso. apply E. intros g Hg. destruct (0 <=? observed vars smp g) eqn:E3; auto. apply not_true_iff_false in E2. exfalso. apply E2. apply existsb_exists. exists g. split; auto. lia.
Qed.

Lemma add_data_ok (d : list (list (list A))) i r c (F G : nat -> nat -> A) j k x : nth_error d i = Some (grid r c F) -> (j < r)%nat -> (k < c)%nat ->
  G j k = nadd (F j k) x -> (forall j' k', (j' <> j \/ k' <> k) -> (j' < r)%nat -> (k' < c)%nat -> G j' k' = F j' k') ->
  add_data d (Z.of_nat i) (Z.of_nat j) (Z.of_nat k) x = Ok (upd_nth d i (grid r c G)).
Proof.
  intros Hd Hj Hk HG Ho. unfold add_data. rewrite (sget_ok _ _ _ Hd). cbn [gbind]. unfold grid at 1. rewrite (sget_ok _ j (map (F j) (seq 0 c))) by (apply (nth_map_seq (fun j => map (F j) (seq 0 c))); auto). cbn [gbind].
  rewrite (sget_ok _ k (F j k)) by (apply nth_map_seq; auto). cbn [gbind]. rewrite sset_ok by (rewrite map_length, seq_length; auto). cbn [gbind].
  rewrite sset_ok by (unfold grid; rewrite map_length, seq_length; auto). cbn [gbind]. rewrite sset_ok by (apply nth_error_Some; rewrite Hd; discriminate). do 2 f_equal.
  unfold grid. apply (upd_map_seq (fun j => map (F j) (seq 0 c)) (fun j => map (G j) (seq 0 c))); auto.
  - symmetry. apply (upd_map_seq (F j) (G j)); auto.
  - intros j' Hne Hj'. apply map_ext_in. intros k' Hk'. apply in_seq in Hk'. apply Ho; auto; lia.
Qed.
Lemma add_count_ok (c : list (list Z)) i r (F G : nat -> Z) j : nth_error c i = Some (map F (seq 0 r)) -> (j < r)%nat -> G j = F j + 1 ->
  (forall j', j' <> j -> (j' < r)%nat -> G j' = F j') -> add_count c (Z.of_nat i) (Z.of_nat j) = Ok (upd_nth c i (map G (seq 0 r))).
Proof.
  intros Hd Hj HG Ho. unfold add_count. rewrite (sget_ok _ _ _ Hd). cbn [gbind]. rewrite (sget_ok _ j (F j)) by (apply nth_map_seq; auto). cbn [gbind].
  rewrite sset_ok by (rewrite map_length, seq_length; auto). cbn [gbind]. rewrite sset_ok by (apply nth_error_Some; rewrite Hd; discriminate). do 2 f_equal. apply upd_map_seq; auto.
Qed.

Definition bump (h : nat -> list sample) (i : nat) : nat -> list sample := fun j => if (j =? i)%nat then h j ++ [smp] else h j.

Lemma counted_same h t i v : counted h t -> nth_error vars i = Some v ->
  (forall j k, (j < rows v)%nat -> (k < cols v)%nat -> hit_sum v j k (h i ++ [smp]) = hit_sum v j k (h i)) ->
  (forall j, (j < rows v)%nat -> hit_count v j (h i ++ [smp]) = hit_count v j (h i)) -> counted (bump h i) t.
Proof.
  intros [C1 C2 C3 C4 C5] Hi Hs Hc. constructor; auto.
  - intros i' w Hw. rewrite (C3 i' w Hw). unfold bump. destruct (Nat.eqb_spec i' i) as [->|]; auto. assert (w = v) by congruence. subst w. f_equal. unfold grid.
    apply map_ext_in. intros j Hj. apply map_ext_in. intros k Hk. apply in_seq in Hj, Hk. rewrite Hs; auto; lia.
  - intros i' w Hw. rewrite (C4 i' w Hw). unfold bump. destruct (Nat.eqb_spec i' i) as [->|]; auto. assert (w = v) by congruence. subst w. f_equal.
    apply map_ext_in. intros j Hj. apply in_seq in Hj. rewrite Hc; auto; lia.
Qed.
Lemma counted_upd h t i v : counted h t -> nth_error vars i = Some v ->
  counted (bump h i) (mkTrainer (upd_nth (tr_data t) i (grid (rows v) (cols v) (fun j k => hit_sum v j k (h i ++ [smp]))))
    (upd_nth (tr_counter t) i (map (fun j => hit_count v j (h i ++ [smp])) (seq 0 (rows v)))) (tr_indices t)).
Proof.
  intros [C1 C2 C3 C4 C5] Hi. assert (Hlt : (i < List.length vars)%nat) by (apply nth_error_Some; rewrite Hi; discriminate).
  constructor; cbn [tr_data tr_counter tr_indices]; rewrite ?upd_nth_length; auto.
  - intros i' w Hw. unfold bump. destruct (Nat.eqb_spec i' i) as [->|].
    + rewrite upd_nth_same by lia. assert (w = v) by congruence. subst w. auto.
    + rewrite upd_nth_other by auto. auto.
  - intros i' w Hw. unfold bump. destruct (Nat.eqb_spec i' i) as [->|].
    + rewrite upd_nth_same by lia. assert (w = v) by congruence. subst w. auto.
    + rewrite upd_nth_other by auto. auto.
Qed.

Lemma upd_nth_twice {X} (l : list X) i x y : upd_nth (upd_nth l i x) i y = upd_nth l i y.
Proof. revert i. induction l as [|z l IH]; intros [|i]; simpl; auto. f_equal. auto. Qed.

Lemma add_node_ok h t i v : counted h t -> nth_error vars i = Some v ->
  exists t', add_node_sample n (fst smp) (snd smp) t (Z.of_nat i, v) = Ok t' /\ counted (bump h i) t'.
Proof.
  intros HC Hi. pose proof (nth_error_In _ _ Hi) as Hv. destruct (fac_spec v Hv) as (Ef & _ & _ & _ & _ & Hc & _ & _). unfold add_node_sample.
  destruct (nodeType_eqb (nv_type v) Decision) eqn:Ed.
  { exists t. split; auto. apply (counted_same h t i v); auto; unfold rows; rewrite Ed; intros; lia. }
  assert (Ei : sget (tr_indices t) (Z.of_nat i) = Ok (map (fun g => Z.of_nat (position vars g)) (nf_given (fac v)))).
  { apply sget_ok. rewrite (ct_indices _ _ HC), nth_error_map, Hi. auto. }
  rewrite Ei. cbn [gbind].
  assert (Es : mapM (sget (fst smp)) (map (fun g => Z.of_nat (position vars g)) (nf_given (fac v))) = Ok (map (observed vars smp) (nf_given (fac v)))).
  { assert (G : forall l, incl l (nf_given (fac v)) -> mapM (sget (fst smp)) (map (fun g => Z.of_nat (position vars g)) l) = Ok (map (observed vars smp) l)).
    { induction l as [|g l IH]; intros Hin; auto. cbn [map mapM]. destruct (given_position v g Hv (Hin g (or_introl eq_refl))) as (p & Hp1 & Hp2 & _).
      rewrite <- Hp2, sample_get by auto. cbn [gbind]. rewrite IH by (intros x Hx; apply Hin; simpl; auto). auto. }
    apply G, incl_refl. }
  rewrite Es. cbn [gbind].
  assert (Eu : exists us, match snd smp with None => Ok [] | Some u => mapM (sget u) (map (fun g => Z.of_nat (position vars g)) (nf_given (fac v))) end = Ok us).
  { destruct (snd smp) as [u|] eqn:Eu; [|eauto]. exists (map (reported vars smp) (nf_given (fac v))).
    assert (G : forall l, incl l (nf_given (fac v)) -> mapM (sget u) (map (fun g => Z.of_nat (position vars g)) l) = Ok (map (reported vars smp) l)).
    { induction l as [|g l IH]; intros Hin; auto. cbn [map mapM]. destruct (given_position v g Hv (Hin g (or_introl eq_refl))) as (p & Hp1 & Hp2 & _).
      rewrite <- Hp2, (utility_get u) by auto. cbn [gbind]. rewrite IH by (intros x Hx; apply Hin; simpl; auto). auto. }
    apply G, incl_refl. }
  destruct Eu as (us & ->). cbn [gbind]. rewrite Ef. cbn [gbind]. rewrite row_index_ok by auto.
  destruct (known_parents (nf_given (fac v)) smp) eqn:Ek; cbn [gbind negb].
  2:{ exists t. split; auto. apply (counted_same h t i v); auto; intros.
      - rewrite hit_sum_snoc. unfold hits. rewrite Ek. cbn [andb]. rewrite andb_false_r. destruct (is_utility v); auto.
      - rewrite hit_count_snoc. unfold hits. rewrite Ek. cbn [andb]. lia. }
  set (r := row_num (nf_given (fac v)) smp).
  assert (Hr : (r < rows v)%nat).
  { unfold rows. rewrite Ed. unfold r, row_num. assert (Ets : table_size vars (nf_given (fac v)) = prod (map (num_outcomes vars) (nf_given (fac v)))).
    { clear. unfold table_size. induction (nf_given (fac v)); simpl; auto. } rewrite Ets. apply flat_lt, parents_inb; auto. }
  assert (Hhit : forall j, hits v j smp = (r =? j)%nat) by (intros j; unfold hits; rewrite Ek; auto).
  change (nodeType_eqb (nv_type v) Utility) with (is_utility v). destruct (is_utility v) eqn:Eut.
  - assert (Hu : sget (slice_of (snd smp)) (Z.of_nat i) = Ok (reported vars smp (nv_name v))).
    { destruct (snd smp) as [u|] eqn:Eu; [rewrite <- (position_at i v Hi); apply utility_get; auto|].
      pose proof (vs_utility _ _ Hsmp) as H. rewrite Eu in H. specialize (H v Hv). unfold is_utility in Eut. destruct (nv_type v); try discriminate. congruence. }
    rewrite Hu. cbn [gbind]. destruct (nisnan _) eqn:En.
    { exists t. split; auto. apply (counted_same h t i v); auto; intros.
      - rewrite hit_sum_snoc. unfold has_value. rewrite Eut, En. cbn [negb]. rewrite !andb_false_r. auto.
      - rewrite hit_count_snoc. unfold has_value. rewrite Eut, En. cbn [negb]. rewrite andb_false_r. lia. }
    assert (Hval : has_value v smp = true) by (unfold has_value; rewrite Eut, En; auto).
    change 0 with (Z.of_nat 0). rewrite (add_data_ok (tr_data t) i (rows v) (cols v) (fun j k => hit_sum v j k (h i)) (fun j k => hit_sum v j k (h i ++ [smp])) r 0).
    2:{ apply (ct_data _ _ HC); auto. } 2:{ auto. } 2:{ auto. }
    2:{ rewrite hit_sum_snoc, Eut, Hhit, !Nat.eqb_refl, Hval. auto. }
    2:{ intros j' k' Hne _ _. rewrite hit_sum_snoc, Eut, Hhit. destruct (Nat.eqb_spec k' 0), (Nat.eqb_spec r j'); cbn [andb]; auto. destruct Hne; congruence. }
    cbn [gbind].
    rewrite (add_count_ok (tr_counter t) i (rows v) (fun j => hit_count v j (h i)) (fun j => if (j =? r)%nat then hit_count v j (h i) + 1 else hit_count v j (h i)) r).
    2:{ apply (ct_count _ _ HC); auto. } 2:{ auto. } 2:{ rewrite Nat.eqb_refl. auto. } 2:{ intros j' Hne _. destruct (Nat.eqb_spec j' r); congruence. }
    cbn [gbind]. rewrite (add_count_ok _ i (rows v) (fun j => if (j =? r)%nat then hit_count v j (h i) + 1 else hit_count v j (h i)) (fun j => hit_count v j (h i ++ [smp])) r).
    2:{ rewrite upd_nth_same; auto. rewrite (ct_count_len _ _ HC). apply nth_error_Some. rewrite Hi. discriminate. } 2:{ auto. }
    2:{ rewrite Nat.eqb_refl, hit_count_snoc, Hhit, !Nat.eqb_refl, Hval, Eut. cbn [andb]. lia. }
    2:{ intros j' Hne _. rewrite hit_count_snoc, Hhit. destruct (Nat.eqb_spec j' r), (Nat.eqb_spec r j'); try congruence; cbn [andb]; lia. }
    cbn [gbind]. rewrite upd_nth_twice. eexists. split; [reflexivity|]. apply counted_upd; auto.
  - assert (Hg : sget (fst smp) (Z.of_nat i) = Ok (observed vars smp (nv_name v))) by (rewrite <- (position_at i v Hi); apply sample_get; auto).
    rewrite Hg. cbn [gbind]. destruct (Z.ltb_spec (observed vars smp (nv_name v)) 0) as [Hneg|Hpos].
    { exists t. split; auto. apply (counted_same h t i v); auto; intros.
      - rewrite hit_sum_snoc, Eut. replace (observed vars smp (nv_name v) =? Z.of_nat k) with false by lia. rewrite andb_false_r. auto.
      - rewrite hit_count_snoc. unfold has_value. rewrite Eut. replace (0 <=? observed vars smp (nv_name v)) with false by lia. rewrite andb_false_r. lia. }
    pose proof (vs_range _ _ Hsmp v Hv) as Hrange. set (s := Z.to_nat (observed vars smp (nv_name v))). assert (Es' : observed vars smp (nv_name v) = Z.of_nat s) by (unfold s; lia).
    assert (Hval : has_value v smp = true) by (unfold has_value; rewrite Eut; lia).
    rewrite Es'. rewrite (add_data_ok (tr_data t) i (rows v) (cols v) (fun j k => hit_sum v j k (h i)) (fun j k => hit_sum v j k (h i ++ [smp])) r s).
    2:{ apply (ct_data _ _ HC); auto. } 2:{ auto. } 2:{ unfold s, cols. unfold zlen in Hrange. lia. }
    2:{ rewrite hit_sum_snoc, Eut, Hhit, !Nat.eqb_refl, Es', Z.eqb_refl. auto. }
    2:{ intros j' k' Hne _ _. rewrite hit_sum_snoc, Eut, Hhit, Es'. destruct (Nat.eqb_spec r j'), (Z.eqb_spec (Z.of_nat s) (Z.of_nat k')); cbn [andb]; auto. destruct Hne; lia. }
    cbn [gbind].
    rewrite (add_count_ok _ i (rows v) (fun j => hit_count v j (h i)) (fun j => hit_count v j (h i ++ [smp])) r).
    2:{ apply (ct_count _ _ HC); auto. } 2:{ auto. }
    2:{ rewrite hit_count_snoc, Hhit, !Nat.eqb_refl, Hval, Eut. cbn [andb]. lia. }
    2:{ intros j' Hne _. rewrite hit_count_snoc, Hhit. destruct (Nat.eqb_spec r j'); try congruence; cbn [andb]; lia. }
    cbn [gbind]. eexists. split; [reflexivity|]. apply counted_upd; auto.
Qed.

Lemma counted_ext h h' t : (forall i, (i < List.length vars)%nat -> h i = h' i) -> counted h t -> counted h' t.
Proof.
  intros E [C1 C2 C3 C4 C5]. assert (L : forall i v, nth_error vars i = Some v -> h i = h' i) by (intros i v Hi; apply E, nth_error_Some; rewrite Hi; discriminate).
  constructor; auto; intros i v Hi; rewrite <- (L i v Hi); auto.
Qed.

Theorem add_sample_ok h t : counted h t -> exists t', add_sample n t (fst smp) (snd smp) = Ok t' /\ counted (fun i => h i ++ [smp]) t'.
Proof.
  intros HC. unfold add_sample.
  destruct (foldM_inv (fun m t => counted (fun i => if (i <? m)%nat then h i ++ [smp] else h i) t) (add_node_sample n (fst smp) (snd smp)) (combine (zrange 0 (zlen vars)) vars) t) as (t' & E & HC').
  - eapply counted_ext; [|exact HC]. intros i _. auto.
  - intros i s x Hx HI. rewrite numbered_at in Hx. destruct (nth_error vars i) as [v|] eqn:Hv; [|discriminate]. injection Hx as <-.
    destruct (add_node_ok _ _ i v HI Hv) as (s' & E & HC'). exists s'. split; auto. eapply counted_ext; [|exact HC']. intros j _. unfold bump.
    destruct (Nat.eqb_spec j i) as [->|].
    + replace (i <? i)%nat with false by (symmetry; apply Nat.ltb_irrefl). replace (i <? S i)%nat with true by (symmetry; apply Nat.ltb_lt; lia). auto.
    + destruct (Nat.ltb_spec j i), (Nat.ltb_spec j (S i)); auto; lia.
  - exists t'. split; auto. rewrite numbered_len in HC'. eapply counted_ext; [|exact HC']. intros i Hi. cbv beta. destruct (Nat.ltb_spec i (List.length vars)); auto; lia.
Qed.
End Sample.

Theorem add_samples_ok samples : (forall smp, In smp samples -> valid_sample vars smp) -> forall h t, counted h t ->
  exists t', foldM (fun t '((s, u) : sample) => add_sample n t s u) t samples = Ok t' /\ counted (fun i => h i ++ samples) t'.
Proof.
  induction samples as [|[s u] samples IH]; intros Hval h t HC.
  - exists t. split; auto. eapply counted_ext; [|exact HC]. intros. rewrite app_nil_r. auto.
  - cbn [foldM]. destruct (add_sample_ok (s, u) (Hval _ (or_introl eq_refl)) h t HC) as (t1 & E & HC1). cbn [fst snd] in E. rewrite E. cbn [gbind].
    destruct (IH (fun x Hx => Hval x (or_intror Hx)) _ _ HC1) as (t2 & E2 & HC2). exists t2. split; auto. eapply counted_ext; [|exact HC2]. intros. cbn beta. rewrite <- app_assoc. auto.
Qed.
End Train.
