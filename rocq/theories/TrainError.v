(** Which tables UpdateNetwork has changed when it returns an error. *)
From Coq Require Import ZArith QArith Qcanon List Bool String Lia Permutation.
From Verif Require Import Num GoBase VarModel Tuples GoFacts SpecFactor XnumFacts VEModel NetModel SpecNet NetNew NetRow TrainModel SpecTrain TrainFacts TrainUpdate TrainThms.
Import ListNotations.
Open Scope string_scope.
Open Scope list_scope.
Open Scope Z_scope.

Lemma run_steps_error {S X} (P : nat -> S -> Prop) (step : S -> X -> S * gores unit) l : forall s0 s' e,
  (forall i x s s', nth_error l i = Some x -> P i s -> step s x = (s', Ok tt) -> P (Datatypes.S i) s') -> P 0%nat s0 ->
  run_steps step s0 l = (s', Err e) -> exists i x s, nth_error l i = Some x /\ P i s /\ step s x = (s', Err e).
Proof.
  revert P. induction l as [|x l IH]; intros P s0 s' e Hs H0 E; cbn [run_steps] in E; [discriminate|].
  destruct (step s0 x) as [s1 r] eqn:E1. destruct r as [[]|e1|p1].
  - destruct (IH (fun i => P (Datatypes.S i)) s1 s' e) as (i & y & s & Hy & HP & Ey); auto.
    + intros i y s s2 Hy HP. apply (Hs (Datatypes.S i) y); auto.
    + apply (Hs 0%nat x s0); auto.
    + exists (Datatypes.S i), y, s. auto.
  - injection E as <- <-. exists 0%nat, x, s0. auto.
  - discriminate.
Qed.

Section Error.
Context {A : Type} {N : NumOps A}.

Lemma update_rows_error (r c : nat) (F : nat -> nat -> A) (G : nat -> Z) T T' e : (0 < c)%nat -> List.length T = (r * c)%nat ->
  run_steps (row_step (grid r c F) (map G (seq 0 r)) (Z.of_nat c)) T (zrange 0 (Z.of_nat r)) = (T', Err e) ->
  exists j, (j < r)%nat /\ G j = 0 /\ (forall j', (j' < j)%nat -> G j' <> 0) /\ List.length T' = (r * c)%nat /\
    forall p, nth_error T' p = if (p <? j * c)%nat then Some (ndiv (F (p / c)%nat (p mod c)%nat) (nofint (G (p / c)%nat))) else nth_error T p.
Proof.
  intros Hc HT E.
  assert (Hin : forall j x, nth_error (zrange 0 (Z.of_nat r)) j = Some x -> (j < r)%nat /\ x = Z.of_nat j).
  { intros j x Hx. rewrite zrange_nat in Hx.
    assert (Hj : (j < r)%nat). { rewrite nth_error_map in Hx. destruct (nth_error (seq 0 r) j) eqn:En; [|discriminate]. rewrite <- (seq_length r 0). apply nth_error_Some. congruence. }
    rewrite nth_map_seq in Hx by auto. injection Hx as <-. auto. }
  apply (run_steps_error (fun m T' => List.length T' = (r * c)%nat /\ (forall j, (j < m)%nat -> G j <> 0) /\
      forall p, nth_error T' p = if (p <? m * c)%nat then Some (ndiv (F (p / c)%nat (p mod c)%nat) (nofint (G (p / c)%nat))) else nth_error T p)) in E.
  - destruct E as (j & x & s & Hx & (HL & HG & HP) & Es). destruct (Hin j x Hx) as [Hj ->]. pose proof (update_row_ok r c F G s j Hj HL) as U. unfold row_step in Es.
    destruct (Z.eqb_spec (G j) 0) as [Hz|Hz].
    + destruct U as (e' & U). rewrite U in Es. injection Es as <- _. exists j. auto 10.
    + destruct U as (T2 & U & _). rewrite U in Es. discriminate.
  - intros j x s s' Hx (HL & HG & HP) Es. destruct (Hin j x Hx) as [Hj ->]. pose proof (update_row_ok r c F G s j Hj HL) as U. unfold row_step in Es.
    destruct (Z.eqb_spec (G j) 0) as [Hz|Hz].
    + destruct U as (e' & U). rewrite U in Es. discriminate.
    + destruct U as (T2 & U & HL' & HP'). rewrite U in Es. injection Es as <-. split; auto. split.
      * intros j' Hj'. destruct (Nat.eq_dec j' j) as [->|]; auto. apply HG. lia.
      * intros p. rewrite HP'. destruct ((j * c <=? p) && (p <? j * c + c))%nat eqn:E1.
        -- apply andb_true_iff in E1. rewrite Nat.leb_le, Nat.ltb_lt in E1. replace (p <? S j * c)%nat with true by (symmetry; apply Nat.ltb_lt; simpl; lia).
           assert (Eq : (p / c = j)%nat) by (symmetry; apply (Nat.div_unique p c j (p - j * c)%nat); lia).
           assert (Em : (p mod c = p - j * c)%nat) by (symmetry; apply (Nat.mod_unique p c j (p - j * c)%nat); lia). rewrite Eq, Em. auto.
        -- rewrite HP. apply not_true_iff_false in E1. rewrite andb_true_iff, Nat.leb_le, Nat.ltb_lt in E1.
           destruct (Nat.ltb_spec p (j * c)), (Nat.ltb_spec p (S j * c)); auto; simpl in *; lia.
  - split; auto. split; [intros; lia|]. intros p. replace (p <? 0 * c)%nat with false by (symmetry; apply Nat.ltb_ge; lia). auto.
Qed.

Variable n : network A.
Hypothesis Hta : trainable n.
Notation vars := (n_vars n).
Notation rows := (rows n).
Notation fac := (fac n).
Notation hit_sum := (hit_sum n).
Notation hit_count := (hit_count n).

Theorem update_error samples t n' e : counted n (fun _ => samples) t -> update_network n t = (n', Err e) ->
  exists i v j T', nth_error vars i = Some v /\ (j < rows v)%nat /\ hit_count v j samples = 0 /\ (forall j', (j' < j)%nat -> hit_count v j' samples <> 0) /\
    own_factor n' v (mkNFactor (nf_for (fac v)) (nf_given (fac v)) (Some T') (nf_outcomes (fac v)) (nf_columns (fac v))) /\
    List.length T' = List.length (slice_of (nf_table (fac v))) /\
    (forall p, nth_error T' p = if (p <? j * cols v)%nat then nth_error (slice_of (nf_table (trained n samples v))) p else nth_error (slice_of (nf_table (fac v))) p) /\
    (forall i' w, (i' < i)%nat -> nth_error vars i' = Some w -> own_factor n' w (trained n samples w) /\ forall j, (j < rows w)%nat -> hit_count w j samples <> 0) /\
    (forall i' w, (i < i')%nat -> nth_error vars i' = Some w -> own_factor n' w (fac w)).
Proof.
  intros HC E. unfold update_network in E.
  destruct (run_steps (update_node t) (n_factors n) (combine (zrange 0 (zlen vars)) vars)) as [fs0 r0] eqn:ER. injection E as <- ->.
  assert (Hdist : forall i i' v w k, nth_error vars i = Some v -> nth_error vars i' = Some w -> nv_factor v = Some k -> nv_factor w = Some k -> i = i').
  { intros i i' v w k Hv Hw Ev Ew. assert (w = v) by (eapply (factor_index_inj n Hta); eauto; eapply nth_error_In; eauto). subst w.
    pose proof (position_at n Hta i v Hv). pose proof (position_at n Hta i' v Hw). lia. }
  apply (run_steps_error (fun m fs => List.length fs = List.length (n_factors n) /\
      (forall i v, (i < m)%nat -> nth_error vars i = Some v -> own_factor (with_factors n fs) v (trained n samples v) /\ forall j, (j < rows v)%nat -> hit_count v j samples <> 0) /\
      (forall k, (forall i v, (i < m)%nat -> nth_error vars i = Some v -> nv_factor v <> Some k) -> nth_error fs k = nth_error (n_factors n) k))) in ER.
  - destruct ER as (i & x & fs & Hx & (HL & H1 & H2) & Es). rewrite numbered_at in Hx. destruct (nth_error vars i) as [v|] eqn:Hi; [|discriminate]. injection Hx as <-.
    pose proof (nth_error_In _ _ Hi) as Hv. destruct (factor_index n Hta v Hv) as (k & Ek & Hk). destruct (fac_spec n Hta v Hv) as (_ & _ & _ & _ & Hcol & Hc & _ & Hlen).
    assert (Hfk : nth_error fs k = Some (fac v)) by (rewrite H2; auto; intros i' w Hi' Hw Ew; assert (i = i') by (eapply Hdist; eauto); lia).
    unfold update_node in Es. rewrite Ek, Hfk in Es. rewrite (sget_ok _ _ _ (ct_data _ _ _ HC i v Hi)), (sget_ok _ _ _ (ct_count _ _ _ HC i v Hi)) in Es. rewrite Hcol in Es.
    replace (Z.of_nat (cols v) =? 0) with false in Es by lia.
    destruct (nf_table (fac v)) as [T|] eqn:ET; [|discriminate].
    cbn [slice_of] in Hlen. assert (Hq : Z.quot (zlen T) (Z.of_nat (cols v)) = Z.of_nat (rows v)) by (unfold zlen; rewrite Hlen, Nat2Z.inj_mul; apply Z.quot_mul; lia). rewrite Hq in Es.
    fold (row_step (grid (rows v) (cols v) (fun j k => hit_sum v j k samples)) (map (fun j => hit_count v j samples) (seq 0 (rows v))) (Z.of_nat (cols v))) in Es.
    destruct (run_steps (row_step (grid (rows v) (cols v) (fun j k => hit_sum v j k samples)) (map (fun j => hit_count v j samples) (seq 0 (rows v))) (Z.of_nat (cols v))) T (zrange 0 (Z.of_nat (rows v)))) as [T' r] eqn:E.
    injection Es as <- ->. destruct (update_rows_error _ _ _ _ _ _ _ Hc Hlen E) as (j & Hj & Hz & Hb & HL' & HP).
    assert (Hkl : (k < List.length fs)%nat) by (apply nth_error_Some; congruence).
    exists i, v, j, T'. split; auto. split; auto. split; auto. split; auto. split; [|split; [|split; [|split]]].
    + exists k. split; auto. cbn [n_factors]. rewrite upd_nth_same by auto. rewrite Hcol. reflexivity.
    + rewrite ET. cbn [slice_of]. lia.
    + intros p. rewrite ET. cbn [slice_of]. rewrite HP. destruct (Nat.ltb_spec p (j * cols v)) as [Hp|Hp]; auto. unfold trained. rewrite ET. cbn [nf_table option_map slice_of]. unfold new_entries.
      rewrite nth_map_seq by nia. auto.
    + intros i' w Hi' Hw. destruct (H1 i' w Hi' Hw) as [(k0 & E0 & F0) H0]. split; auto. exists k0. split; auto. cbn [n_factors with_factors] in *. rewrite upd_nth_other; auto.
      intros ->. assert (i = i') by (eapply Hdist; eauto). lia.
    + intros i' w Hi' Hw. destruct (factor_index n Hta w (nth_error_In _ _ Hw)) as (k0 & E0 & F0). exists k0. split; auto. cbn [n_factors].
      rewrite upd_nth_other by (intros ->; assert (i = i') by (eapply Hdist; eauto); lia). rewrite H2; auto. intros i2 w2 Hi2 Hw2 Ew2. assert (i' = i2) by (eapply Hdist; eauto). lia.
  - intros i x fs fs1 Hx (HL & H1 & H2) Es. rewrite numbered_at in Hx. destruct (nth_error vars i) as [v|] eqn:Hi; [|discriminate]. injection Hx as <-.
    pose proof (nth_error_In _ _ Hi) as Hv. destruct (factor_index n Hta v Hv) as (k & Ek & Hk). destruct (fac_spec n Hta v Hv) as (_ & _ & _ & _ & Hcol & Hc & _ & Hlen).
    assert (Hfk : nth_error fs k = Some (fac v)) by (rewrite H2; auto; intros i' w Hi' Hw Ew; assert (i = i') by (eapply Hdist; eauto); lia).
    assert (Hkl : (k < List.length fs)%nat) by (apply nth_error_Some; congruence).
    unfold update_node in Es. rewrite Ek, Hfk in Es. rewrite (sget_ok _ _ _ (ct_data _ _ _ HC i v Hi)), (sget_ok _ _ _ (ct_count _ _ _ HC i v Hi)) in Es. rewrite Hcol in Es.
    replace (Z.of_nat (cols v) =? 0) with false in Es by lia.
    assert (Hstep : forall g, g = trained n samples v -> (forall j, (j < rows v)%nat -> hit_count v j samples <> 0) ->
      List.length (upd_nth fs k g) = List.length (n_factors n) /\
      (forall i0 v0, (i0 < S i)%nat -> nth_error vars i0 = Some v0 -> own_factor (with_factors n (upd_nth fs k g)) v0 (trained n samples v0) /\ forall j, (j < rows v0)%nat -> hit_count v0 j samples <> 0) /\
      (forall k0, (forall i0 v0, (i0 < S i)%nat -> nth_error vars i0 = Some v0 -> nv_factor v0 <> Some k0) -> nth_error (upd_nth fs k g) k0 = nth_error (n_factors n) k0)).
    { intros g -> Hnz. rewrite upd_nth_length. split; auto. split.
      - intros i0 v0 Hi0 Hv0. destruct (Nat.eq_dec i0 i) as [->|Hne].
        + assert (v0 = v) by congruence. subst v0. split; auto. exists k. split; auto. cbn [n_factors with_factors]. apply upd_nth_same. auto.
        + destruct (H1 i0 v0 ltac:(lia) Hv0) as [(k0 & E0 & F0) H0]. split; auto. exists k0. split; auto. cbn [n_factors with_factors] in *. rewrite upd_nth_other; auto.
          intros ->. assert (i = i0) by (eapply Hdist; eauto). lia.
      - intros k0 Hk0. assert (Hne : k <> k0). { intros <-. apply (Hk0 i v); auto. }
        rewrite upd_nth_other by auto. apply H2. intros i0 v0 Hi0. apply Hk0. lia. }
    destruct (nf_table (fac v)) as [T|] eqn:ET.
    + cbn [slice_of] in Hlen. assert (Hq : Z.quot (zlen T) (Z.of_nat (cols v)) = Z.of_nat (rows v)) by (unfold zlen; rewrite Hlen, Nat2Z.inj_mul; apply Z.quot_mul; lia). rewrite Hq in Es.
      fold (row_step (grid (rows v) (cols v) (fun j k => hit_sum v j k samples)) (map (fun j => hit_count v j samples) (seq 0 (rows v))) (Z.of_nat (cols v))) in Es.
      destruct (update_rows_ok (rows v) (cols v) (fun j k => hit_sum v j k samples) (fun j => hit_count v j samples) T Hc Hlen) as [[E HG]|(j & T' & e' & Hj & Hz & E & HL')].
      * unfold row_step in E, Es. rewrite E in Es. injection Es as <-. apply Hstep; auto. unfold trained. rewrite ET. cbn [option_map]. rewrite <- Hcol. auto.
      * unfold row_step in E, Es. rewrite E in Es. discriminate.
    + injection Es as <-. cbn [slice_of List.length] in Hlen. assert (Hr0 : rows v = 0%nat) by nia. split; auto. split.
      * intros i0 v0 Hi0 Hv0. destruct (Nat.eq_dec i0 i) as [->|Hne]; [|apply (H1 i0); auto; lia]. assert (v0 = v) by congruence. subst v0. split; [|intros; lia].
        exists k. split; auto. cbn [n_factors with_factors]. rewrite Hfk. f_equal. unfold trained. rewrite ET. cbn [option_map]. rewrite <- ET. destruct (fac v); auto.
      * intros k0 Hk0. apply H2. intros i0 v0 Hi0. apply Hk0. lia.
  - split; auto. split; [intros; lia|auto].
Qed.
End Error.
