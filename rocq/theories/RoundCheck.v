(** Boolean checkers for the hypotheses about float64 networks, and consequences of closeness. *)
From Coq Require Import ZArith List Bool String Lia QArith Qcanon Qcabs.
From Coq Require Import Floats.SpecFloat.
From Verif Require Import Num GoBase VarModel SpecFactor XnumFacts VEModel SpecVE NetModel SpecNet NetCheck SpecRound SpecFloatUtility.
Import ListNotations.
Open Scope string_scope.
Open Scope list_scope.
Open Scope Z_scope.

Definition qle (x y : Qc) : bool := Qle_bool (this x) (this y).
Lemma qle_sound x y : qle x y = true -> (x <= y)%Qc.
Proof. intros H. apply Qle_bool_iff in H. exact H. Qed.

Definition float_b (n : network f64) : bool :=
  forallb (fun f => forallb is_float64 (slice_of (nf_table f))) (n_factors n) &&
  forallb (fun dp => forallb is_float64 (f_data (snd dp))) (n_policies n).
Lemma float_b_sound n : float_b n = true -> float_network n.
Proof.
  unfold float_b. intros H. apply andb_prop in H. destruct H as [H1 H2]. rewrite forallb_forall in H1, H2. split.
  - intros f x Hf. specialize (H1 f Hf). rewrite forallb_forall in H1. auto.
  - intros d p x Hp. specialize (H2 (d, p) Hp). rewrite forallb_forall in H2. auto.
Qed.

Definition small_or_zero (lo x : Qc) : bool := qeq x 0%Qc || qle lo x.
Lemma small_or_zero_sound lo x : small_or_zero lo x = true -> x = 0%Qc \/ (lo <= x)%Qc.
Proof. intros H. apply orb_prop in H. destruct H as [H|H]; [left; apply qeq_spec; auto|right; apply qle_sound; auto]. Qed.

Definition policy_entry_b (lo : Qc) (x : xnum) : bool :=
  match x with Fin q => qeq q 0%Qc || (qle lo q && qle q 1%Qc) | _ => false end.

Definition range_b (n : network xnum) (b : string -> nat) (s : nat) : bool :=
  forallb (fun f => forallb (fun w =>
    small_or_zero (two_to_minus 1000) (entry (n_vars n) f w) &&
    qle (row_sum (n_vars n) f w) (two_to 1000) &&
    small_or_zero (two_to_minus (b (nf_for f))) (cond_prob (n_vars n) f w)) (table_states (n_vars n) f)) (chance_factors n) &&
  forallb (fun dp => forallb (policy_entry_b (two_to_minus (b (fst dp)))) (f_data (snd dp))) (n_policies n) &&
  (fold_right (fun v z => zlen (nv_outcomes v) * z) 1 (filter (fun v => negb (is_kind Utility v)) (n_vars n)) <=? 2 ^ Z.of_nat s) &&
  (list_sum (map (fun f => b (nf_for f)) (chance_factors n)) + list_sum (map (fun dp => b (fst dp)) (n_policies n)) + s <=? 1000)%nat.

Lemma cond_prob_ext vars f s s' : (forall x, In x (nf_given f ++ [nf_for f]) -> s x = s' x) -> cond_prob vars f s = cond_prob vars f s'.
Proof. intros H. unfold cond_prob. rewrite (row_sum_ext vars f s s' H), (entry_ext vars f s s' H). auto. Qed.

Lemma value_in (p : factor xnum) a : value p a = 0%Qc \/ In (Fin (value p a)) (f_data p).
Proof.
  unfold value. destruct (get_at p a) as [[q| | |]|e|e] eqn:E; auto. right.
  unfold get_at, f_get in E. destruct (f_index p (tuple_of (f_vars p) a)) as [i|e|e]; cbn [gbind] in E; try discriminate E.
  unfold sget in E. destruct (i <? 0); [discriminate E|]. destruct (nth_error (f_data p) (Z.to_nat i)) eqn:E1; [|discriminate E].
  injection E as ->. eapply nth_error_In; eauto.
Qed.

Lemma range_b_sound n b s : NoDup (map nv_name (n_vars n)) -> range_b n b s = true -> in_float_range n b s.
Proof.
  intros Hnd H. unfold range_b in H. rewrite !andb_true_iff in H. destruct H as [[[H1 H2] H3] H4].
  rewrite forallb_forall in H1, H2.
  assert (G : forall f w, In f (chance_factors n) -> in_table (n_vars n) f w ->
    small_or_zero (two_to_minus 1000) (entry (n_vars n) f w) = true /\ qle (row_sum (n_vars n) f w) (two_to 1000) = true /\
    small_or_zero (two_to_minus (b (nf_for f))) (cond_prob (n_vars n) f w) = true).
  { intros f w Hf. revert w. apply (in_table_cases (n_vars n) f (fun w => small_or_zero (two_to_minus 1000) (entry (n_vars n) f w) = true /\
      qle (row_sum (n_vars n) f w) (two_to 1000) = true /\ small_or_zero (two_to_minus (b (nf_for f))) (cond_prob (n_vars n) f w) = true) Hnd).
    - intros w w' E. rewrite (entry_ext _ _ _ _ E), (row_sum_ext _ _ _ _ E), (cond_prob_ext _ _ _ _ E). auto.
    - intros w Hw. specialize (H1 f Hf). rewrite forallb_forall in H1. specialize (H1 w Hw). rewrite !andb_true_iff in H1. tauto. }
  split.
  - intros f w Hf Hw. apply small_or_zero_sound. apply G; auto.
  - intros f w Hf Hw. apply qle_sound. apply G; auto.
  - intros f w Hf Hw. apply small_or_zero_sound. apply G; auto.
  - intros d p w Hp _. unfold policy_prob. destruct (value_in p (positions (n_vars n) w)) as [E|Hin]; auto.
    specialize (H2 (d, p) Hp). rewrite forallb_forall in H2. specialize (H2 _ Hin). unfold policy_entry_b in H2. cbn [fst] in H2.
    apply orb_prop in H2. destruct H2 as [H2|H2]; [left; apply qeq_spec; auto|right]. apply andb_prop in H2. split; apply qle_sound; apply H2.
  - apply Z.leb_le. auto.
  - apply Nat.leb_le. auto.
Qed.

Lemma error_le_one k : Z.of_nat k <= 2 ^ 52 -> (error_of k <= 1)%Qc.
Proof.
  intros H. unfold error_of.
  assert (E : two_to_minus 52 = Q2Qc (1 # Z.to_pos (2 ^ 52))) by (apply Qc_is_canon; vm_compute; reflexivity).
  rewrite E. unfold Qcle. cbn [this Qcmult Q2Qc]. rewrite !Qred_correct. unfold Qle. cbn [Qnum Qden Qmult inject_Z]. lia.
Qed.

Lemma error_nonneg k : (0 <= error_of k)%Qc.
Proof.
  unfold error_of.
  assert (E : two_to_minus 52 = Q2Qc (1 # Z.to_pos (2 ^ 52))) by (apply Qc_is_canon; vm_compute; reflexivity).
  rewrite E. unfold Qcle. cbn [this Qcmult Q2Qc]. rewrite !Qred_correct. unfold Qle. cbn [Qnum Qden Qmult inject_Z]. lia.
Qed.

Lemma two_close p e1 e2 r1 r2 : (p * e1 <= e1)%Qc -> (p * e2 <= e2)%Qc -> (r1 <= p + p * e1)%Qc -> (p - p * e2 <= r2)%Qc ->
  (r1 - r2 <= e1 + e2)%Qc.
Proof.
  intros H1 H2 H3 H4. replace (r1 - r2)%Qc with (r1 + - r2)%Qc by ring.
  apply Qcle_trans with (p + p * e1 + - (p - p * e2))%Qc.
  - apply Qcplus_le_compat; auto. apply Qcopp_le_compat. auto.
  - replace (p + p * e1 + - (p - p * e2))%Qc with (p * e1 + p * e2)%Qc by ring. apply Qcplus_le_compat; auto.
Qed.

(** Variables that can be asked for because a stored policy mentions them *)
Definition policy_askable_b (n : network xnum) (ign : string -> bool) (ev : list (string * string)) (q : string) : bool :=
  match var_named (n_vars n) q with Some v => negb (is_kind Utility v) | None => false end &&
  existsb (fun dp => negb (ign (fst dp)) && existsb (fun w => (0 <=? v_id w) && match nth_error (n_vars n) (Z.to_nat (v_id w)) with
    | Some v => String.eqb (nv_name v) q | None => false end) (f_vars (snd dp))) (n_policies n) &&
  negb (existsb (String.eqb q) (map fst ev)).
Lemma policy_askable_b_sound n ign ev q : policy_askable_b n ign ev q = true -> askable n ign ev q.
Proof.
  unfold policy_askable_b. rewrite !andb_true_iff. intros [[H1 H2] H3]. split; [|split].
  - destruct (var_named (n_vars n) q) as [v|]; [|discriminate]. exists v. split; auto. intros E. unfold is_kind in H1. rewrite E in H1. discriminate.
  - right. apply existsb_exists in H2. destruct H2 as ([d p] & Hin & H2). apply andb_prop in H2. destruct H2 as [Hi H2].
    apply existsb_exists in H2. destruct H2 as (w & Hw & H2). apply andb_prop in H2. destruct H2 as [Hz H2].
    destruct (nth_error (n_vars n) (Z.to_nat (v_id w))) as [v|] eqn:E; [|discriminate H2].
    exists d, p, (Z.to_nat (v_id w)), v, w. apply negb_true_iff in Hi. apply String.eqb_eq in H2. repeat split; auto. lia.
  - intros Hin. apply exists_eqb in Hin. rewrite Hin in H3. discriminate.
Qed.

Definition magnitude_b (e : nat) (x : Qc) : bool := qeq x 0%Qc || (qle (two_to_minus e) (Qcabs x) && qle (Qcabs x) (two_to e)).
Lemma magnitude_b_sound e x : magnitude_b e x = true -> x = 0%Qc \/ (two_to_minus e <= Qcabs x <= two_to e)%Qc.
Proof.
  intros H. apply orb_prop in H. destruct H as [H|H]; [left; apply qeq_spec; auto|right]. apply andb_prop in H. split; apply qle_sound; apply H.
Qed.
Definition utilities_b (n : network xnum) (b : string -> nat) (s e : nat) : bool :=
  forallb (fun f => forallb (fun w => magnitude_b e (entry (n_vars n) f w)) (table_states (n_vars n) f)) (utility_tables n) &&
  forallb (fun v => negb (is_kind Utility v) || is_total n (nv_name v) || magnitude_b e (net_weight n (nv_name v))) (n_vars n) &&
  qle (Q2Qc (inject_Z (zlen (utility_tables n)))) (two_to e) &&
  (list_sum (map (fun f => b (nf_for f)) (chance_factors n)) + list_sum (map (fun dp => b (fst dp)) (n_policies n)) + s + 3 * e <=? 1000)%nat.
Lemma utilities_b_sound n b s e : NoDup (map nv_name (n_vars n)) -> utilities_b n b s e = true -> utilities_in_range n b s e.
Proof.
  intros Hnd H. unfold utilities_b in H. rewrite !andb_true_iff in H. destruct H as [[[H1 H2] H3] H4]. rewrite forallb_forall in H1, H2. split.
  - intros f w Hf Hw. apply magnitude_b_sound. revert w Hw.
    apply (in_table_cases (n_vars n) f (fun w => magnitude_b e (entry (n_vars n) f w) = true) Hnd).
    + intros w w' E. rewrite (entry_ext _ _ _ _ E). auto.
    + intros w Hw. specialize (H1 f Hf). rewrite forallb_forall in H1. auto.
  - intros v Hv Hu Ht. apply magnitude_b_sound. specialize (H2 v Hv). unfold is_kind in H2. rewrite Hu, Ht in H2. exact H2.
  - apply qle_sound. auto.
  - apply Nat.leb_le. auto.
Qed.
