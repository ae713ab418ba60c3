(** UpdateNetwork. *)
From Coq Require Import ZArith List Bool String Lia Permutation.
From Verif Require Import Num GoBase VarModel Tuples GoFacts VEModel NetModel SpecNet NetNew NetRow TrainModel SpecTrain TrainFacts.
Import ListNotations.
Open Scope string_scope.
Open Scope list_scope.
Open Scope Z_scope.

Lemma run_steps_inv {S X} (P : nat -> S -> Prop) (bad : nat -> Prop) (Q : S -> Prop) (step : S -> X -> S * gores unit) l : forall s0,
  (forall i x s, nth_error l i = Some x -> P i s ->
     (exists s', step s x = (s', Ok tt) /\ P (Datatypes.S i) s') \/ (bad i /\ exists s' e, step s x = (s', Err e) /\ Q s')) ->
  P 0%nat s0 ->
  (exists s', run_steps step s0 l = (s', Ok tt) /\ P (List.length l) s') \/
  (exists i s' e, (i < List.length l)%nat /\ bad i /\ run_steps step s0 l = (s', Err e) /\ Q s').
Proof.
  revert P bad. induction l as [|x l IH]; intros P bad s0 Hs H0; cbn [run_steps List.length]; [eauto|].
  destruct (Hs 0%nat x s0 eq_refl H0) as [(s' & E & HP)|(Hb & s' & e & E & HQ)].
  - rewrite E. destruct (IH (fun i => P (Datatypes.S i)) (fun i => bad (Datatypes.S i)) s' (fun i y s Hy HP' => Hs (Datatypes.S i) y s Hy HP') HP) as [(s2 & E2 & H2)|(i & s2 & e & Hi & Hb & E2 & H2)].
    + left. eauto.
    + right. exists (Datatypes.S i), s2, e. split; [lia|auto].
  - rewrite E. right. exists 0%nat, s', e. split; [lia|auto].
Qed.

Section Update.
Context {A : Type} {N : NumOps A}.

Lemma update_row_ok (r c : nat) (F : nat -> nat -> A) (G : nat -> Z) T j : (j < r)%nat -> List.length T = (r * c)%nat ->
  if G j =? 0 then exists e, update_row (grid r c F) (map G (seq 0 r)) (Z.of_nat c) T (Z.of_nat j) = Err e
  else exists T', update_row (grid r c F) (map G (seq 0 r)) (Z.of_nat c) T (Z.of_nat j) = Ok T' /\ List.length T' = (r * c)%nat /\
    forall p, nth_error T' p = if ((j * c <=? p) && (p <? j * c + c))%nat then Some (ndiv (F j (p - j * c)%nat) (nofint (G j))) else nth_error T p.
Proof.
  intros Hj HT. unfold update_row. rewrite (sget_ok _ j (G j)) by (apply nth_map_seq; auto). cbn [gbind]. destruct (G j =? 0); [eauto|].
  destruct (foldM_inv (fun m T' => List.length T' = (r * c)%nat /\
    forall p, nth_error T' p = if ((j * c <=? p) && (p <? j * c + m))%nat then Some (ndiv (F j (p - j * c)%nat) (nofint (G j))) else nth_error T p)
    (fun table k => let! row := sget (grid r c F) (Z.of_nat j) in let! x := sget row k in sset table (Z.of_nat j * Z.of_nat c + k) (ndiv x (nofint (G j))))
    (zrange 0 (Z.of_nat c)) T) as (T' & E & HL & HP).
  - split; auto. intros p. replace ((j * c <=? p) && (p <? j * c + 0))%nat with false; auto. symmetry. apply not_true_iff_false. rewrite andb_true_iff, Nat.leb_le, Nat.ltb_lt. lia.
  - intros k s x Hx [HL HP]. rewrite zrange_nat in Hx.
    assert (Hk : (k < c)%nat). { rewrite nth_error_map in Hx. destruct (nth_error (seq 0 c) k) eqn:E; [|discriminate]. rewrite <- (seq_length c 0). apply nth_error_Some. congruence. }
    rewrite nth_map_seq in Hx by auto. injection Hx as <-.
    rewrite (sget_ok _ j (map (F j) (seq 0 c))) by (apply (nth_map_seq (fun j => map (F j) (seq 0 c))); auto). cbn [gbind].
    rewrite (sget_ok _ k (F j k)) by (apply nth_map_seq; auto). cbn [gbind]. replace (Z.of_nat j * Z.of_nat c + Z.of_nat k) with (Z.of_nat (j * c + k)) by lia.
    assert (Hlt : (j * c + k < List.length s)%nat) by (rewrite HL; nia). rewrite sset_ok by auto. eexists. split; [reflexivity|]. rewrite upd_nth_length. split; auto.
    intros p. destruct (Nat.eq_dec p (j * c + k)) as [->|Hne].
    + rewrite upd_nth_same by auto. replace ((j * c <=? j * c + k) && (j * c + k <? j * c + S k))%nat with true; [do 3 f_equal; lia|]. symmetry. rewrite andb_true_iff, Nat.leb_le, Nat.ltb_lt. lia.
    + rewrite upd_nth_other by auto. rewrite HP. destruct ((j * c <=? p) && (p <? j * c + k))%nat eqn:E1, ((j * c <=? p) && (p <? j * c + S k))%nat eqn:E2; auto.
      * apply andb_true_iff in E1. rewrite Nat.leb_le, Nat.ltb_lt in E1. apply not_true_iff_false in E2. rewrite andb_true_iff, Nat.leb_le, Nat.ltb_lt in E2. lia.
      * apply andb_true_iff in E2. rewrite Nat.leb_le, Nat.ltb_lt in E2. apply not_true_iff_false in E1. rewrite andb_true_iff, Nat.leb_le, Nat.ltb_lt in E1. lia.
  - exists T'. split; auto. split; auto. intros p. rewrite HP. rewrite zrange_nat, map_length, seq_length. auto.
Qed.

Definition new_entries (r c : nat) (F : nat -> nat -> A) (G : nat -> Z) : list A :=
  map (fun p => ndiv (F (p / c)%nat (p mod c)%nat) (nofint (G (p / c)%nat))) (seq 0 (r * c)).

Definition row_step (data : list (list A)) (counter : list Z) (cols : Z) (table : list A) (j : Z) : list A * gores unit :=
  match update_row data counter cols table j with
  | Ok table' => (table', Ok tt)
  | bad => (table, no_value bad)
  end.

Lemma update_rows_ok (r c : nat) (F : nat -> nat -> A) (G : nat -> Z) T : (0 < c)%nat -> List.length T = (r * c)%nat ->
  (run_steps (row_step (grid r c F) (map G (seq 0 r)) (Z.of_nat c)) T (zrange 0 (Z.of_nat r)) = (new_entries r c F G, Ok tt) /\ (forall j, (j < r)%nat -> G j <> 0)) \/
  (exists j T' e, (j < r)%nat /\ G j = 0 /\ run_steps (row_step (grid r c F) (map G (seq 0 r)) (Z.of_nat c)) T (zrange 0 (Z.of_nat r)) = (T', Err e) /\ List.length T' = List.length T).
Proof.
  intros Hc HT.
  destruct (run_steps_inv (fun m T' => List.length T' = (r * c)%nat /\ (forall j, (j < m)%nat -> G j <> 0) /\
      forall p, nth_error T' p = if (p <? m * c)%nat then Some (ndiv (F (p / c)%nat (p mod c)%nat) (nofint (G (p / c)%nat))) else nth_error T p)
    (fun j => (j < r)%nat /\ G j = 0) (fun T' => List.length T' = (r * c)%nat)
    (row_step (grid r c F) (map G (seq 0 r)) (Z.of_nat c)) (zrange 0 (Z.of_nat r)) T) as [(T' & E & HL & HG & HP)|(j & T' & e & _ & [Hj Hz] & E & HQ)].
  - intros j x s Hx (HL & HG & HP). rewrite zrange_nat in Hx.
    assert (Hj : (j < r)%nat). { rewrite nth_error_map in Hx. destruct (nth_error (seq 0 r) j) eqn:E; [|discriminate]. rewrite <- (seq_length r 0). apply nth_error_Some. congruence. }
    rewrite nth_map_seq in Hx by auto. injection Hx as <-. pose proof (update_row_ok r c F G s j Hj HL) as U. unfold row_step. destruct (Z.eqb_spec (G j) 0) as [Hz|Hz].
    + right. destruct U as (e & ->). split; auto. exists s, e. auto.
    + left. destruct U as (T' & -> & HL' & HP'). exists T'. split; auto. split; auto. split.
      * intros j' Hj'. destruct (Nat.eq_dec j' j) as [->|]; auto. apply HG. lia.
      * intros p. rewrite HP', HP. destruct ((j * c <=? p) && (p <? j * c + c))%nat eqn:E1.
        -- apply andb_true_iff in E1. rewrite Nat.leb_le, Nat.ltb_lt in E1. replace (p <? S j * c)%nat with true by (symmetry; apply Nat.ltb_lt; simpl; lia).
           assert (D : (p / c = j)%nat) by (symmetry; apply (Nat.div_unique p c j (p - j * c)); lia). assert (M : (p mod c = p - j * c)%nat) by (symmetry; apply (Nat.mod_unique p c j (p - j * c)); lia). rewrite D, M. auto.
        -- apply not_true_iff_false in E1. rewrite andb_true_iff, Nat.leb_le, Nat.ltb_lt in E1. destruct (Nat.ltb_spec p (j * c)), (Nat.ltb_spec p (S j * c)); auto; simpl in *; lia.
  - split; auto. split; [intros; lia|]. intros p. auto.
  - rewrite zrange_nat, map_length, seq_length in HG, HP. left. split; [|auto]. rewrite E. f_equal. apply nth_error_ext. intros p. rewrite HP.
    destruct (Nat.ltb_spec p (r * c)).
    + unfold new_entries. rewrite nth_map_seq by auto. auto.
    + rewrite (proj2 (nth_error_None T p)) by lia. symmetry. apply nth_error_None. unfold new_entries. rewrite map_length, seq_length. auto.
  - right. exists j, T', e. rewrite HT. auto.
Qed.

Variable n : network A.
Hypothesis Hta : trainable n.
Notation vars := (n_vars n).
Notation rows := (rows n).
Notation fac := (fac n).
Notation hit_sum := (hit_sum n).
Notation hit_count := (hit_count n).

Definition trained (samples : list (list Z * option (list A))) (v : nvar) : nfactor A :=
  mkNFactor (nf_for (fac v)) (nf_given (fac v))
    (option_map (fun _ => new_entries (rows v) (cols v) (fun j k => hit_sum v j k samples) (fun j => hit_count v j samples)) (nf_table (fac v)))
    (nf_outcomes (fac v)) (nf_columns (fac v)).
(** Only the entries of tables differ. *)
Definition keeps (f f' : nfactor A) : Prop :=
  nf_for f' = nf_for f /\ nf_given f' = nf_given f /\ nf_outcomes f' = nf_outcomes f /\ nf_columns f' = nf_columns f /\
  option_map (@List.length A) (nf_table f') = option_map (@List.length A) (nf_table f).
Definition with_factors (fs : list (nfactor A)) : network A :=
  mkNet (n_name n) (n_info n) (n_vars n) fs (n_policies n) (n_ve n) (n_names n) (n_tui n).

Lemma keeps_refl f : keeps f f.
Proof. repeat split. Qed.

Lemma factor_index_inj v w k : In v vars -> In w vars -> nv_factor v = Some k -> nv_factor w = Some k -> v = w.
Proof.
  intros Hv Hw E1 E2. destruct (fac_spec n Hta v Hv) as (_ & _ & F1 & _). destruct (fac_spec n Hta w Hw) as (_ & _ & F2 & _).
  assert (E : fac v = fac w) by (unfold TrainFacts.fac; rewrite E1, E2; auto). rewrite E in F1. rewrite F1 in F2.
  pose proof (ta_names n Hta) as Hn. pose proof (var_named_in' _ v Hn Hv) as P1. pose proof (var_named_in' _ w Hn Hw) as P2. congruence.
Qed.

Lemma factor_index v : In v vars -> exists k, nv_factor v = Some k /\ nth_error (n_factors n) k = Some (fac v).
Proof. intros Hv. destruct (fac_spec n Hta v Hv) as (_ & (k & H1 & H2) & _). eauto. Qed.

Theorem update_ok samples t : counted n (fun _ => samples) t ->
  (exists fs, update_network n t = (with_factors fs, Ok tt) /\ (forall v j, In v vars -> (j < rows v)%nat -> hit_count v j samples <> 0) /\
     List.length fs = List.length (n_factors n) /\
     (forall v, In v vars -> own_factor (with_factors fs) v (trained samples v)) /\
     (forall k, (forall v, In v vars -> nv_factor v <> Some k) -> nth_error fs k = nth_error (n_factors n) k) /\ Forall2 keeps (n_factors n) fs) \/
  (exists fs e, update_network n t = (with_factors fs, Err e) /\ (exists v j, In v vars /\ (j < rows v)%nat /\ hit_count v j samples = 0) /\ Forall2 keeps (n_factors n) fs).
Proof.
  intros HC. unfold update_network.
  destruct (run_steps_inv (fun m fs => List.length fs = List.length (n_factors n) /\ Forall2 keeps (n_factors n) fs /\
      (forall i v, (i < m)%nat -> nth_error vars i = Some v -> own_factor (with_factors fs) v (trained samples v) /\ forall j, (j < rows v)%nat -> hit_count v j samples <> 0) /\
      (forall k, (forall i v, (i < m)%nat -> nth_error vars i = Some v -> nv_factor v <> Some k) -> nth_error fs k = nth_error (n_factors n) k))
    (fun i => exists v j, nth_error vars i = Some v /\ (j < rows v)%nat /\ hit_count v j samples = 0)
    (fun fs => Forall2 keeps (n_factors n) fs)
    (update_node t) (combine (zrange 0 (zlen vars)) vars) (n_factors n)) as [(fs & E & HL & HK & H1 & H2)|(i & fs & e & _ & (v & j & Hv & Hj & Hz) & E & HQ)].
  - intros i x fs Hx (HL & HK & H1 & H2). rewrite numbered_at in Hx. destruct (nth_error vars i) as [v|] eqn:Hi; [|discriminate]. injection Hx as <-.
    pose proof (nth_error_In _ _ Hi) as Hv. destruct (factor_index v Hv) as (k & Ek & Hk). destruct (fac_spec n Hta v Hv) as (_ & _ & _ & _ & Hcol & Hc & _ & Hlen).
    assert (Hother : forall i' w, (i' < i)%nat -> nth_error vars i' = Some w -> nv_factor w <> Some k).
    { intros i' w Hi' Hw Ew. assert (w = v) by (eapply factor_index_inj; eauto; eapply nth_error_In; eauto). subst w.
      pose proof (position_at n Hta i v Hi). pose proof (position_at n Hta i' v Hw). lia. }
    assert (Hfk : nth_error fs k = Some (fac v)) by (rewrite H2; auto).
    unfold update_node. rewrite Ek, Hfk. rewrite (sget_ok _ _ _ (ct_data _ _ _ HC i v Hi)), (sget_ok _ _ _ (ct_count _ _ _ HC i v Hi)). rewrite Hcol.
    replace (Z.of_nat (cols v) =? 0) with false by lia.
    assert (Hkl : (k < List.length fs)%nat) by (apply nth_error_Some; congruence).
    (* replacing the factor *)
    assert (Hkeep : forall g, keeps (fac v) g -> Forall2 keeps (n_factors n) (upd_nth fs k g)).
    { intros g Hg. clear - HK Hg Hk. revert k Hk. induction HK as [|f f' l l' Hf HK IH]; intros k Hk; [destruct k; discriminate|]. destruct k as [|k]; cbn [upd_nth].
      - injection Hk as ->. constructor; auto.
      - constructor; auto. }
    assert (Hstep : forall g, keeps (fac v) g -> g = trained samples v -> (forall j, (j < rows v)%nat -> hit_count v j samples <> 0) ->
      List.length (upd_nth fs k g) = List.length (n_factors n) /\ Forall2 keeps (n_factors n) (upd_nth fs k g) /\
      (forall i0 v0, (i0 < S i)%nat -> nth_error vars i0 = Some v0 -> own_factor (with_factors (upd_nth fs k g)) v0 (trained samples v0) /\ forall j, (j < rows v0)%nat -> hit_count v0 j samples <> 0) /\
      (forall k0, (forall i0 v0, (i0 < S i)%nat -> nth_error vars i0 = Some v0 -> nv_factor v0 <> Some k0) -> nth_error (upd_nth fs k g) k0 = nth_error (n_factors n) k0)).
    { intros g Hg -> Hnz. rewrite upd_nth_length. split; auto. split; auto. split.
      - intros i0 v0 Hi0 Hv0. destruct (Nat.eq_dec i0 i) as [->|Hne].
        + assert (v0 = v) by congruence. subst v0. split; auto. exists k. split; auto. cbn [n_factors with_factors]. apply upd_nth_same. auto.
        + destruct (H1 i0 v0 ltac:(lia) Hv0) as [(k0 & E0 & F0) H0]. split; auto. exists k0. split; auto. cbn [n_factors with_factors] in *. rewrite upd_nth_other; auto.
          intros ->. apply (Hother i0 v0); auto. lia.
      - intros k0 Hk0. assert (Hne : k <> k0). { intros <-. apply (Hk0 i v); auto. }
        rewrite upd_nth_other by auto. apply H2. intros i0 v0 Hi0. apply Hk0. lia. }
    destruct (nf_table (fac v)) as [T|] eqn:ET.
    + cbn [slice_of] in Hlen. assert (Hq : Z.quot (zlen T) (Z.of_nat (cols v)) = Z.of_nat (rows v)) by (unfold zlen; rewrite Hlen, Nat2Z.inj_mul; apply Z.quot_mul; lia). rewrite Hq.
      fold (row_step (grid (rows v) (cols v) (fun j k => hit_sum v j k samples)) (map (fun j => hit_count v j samples) (seq 0 (rows v))) (Z.of_nat (cols v))).
      destruct (update_rows_ok (rows v) (cols v) (fun j k => hit_sum v j k samples) (fun j => hit_count v j samples) T Hc Hlen) as [[E HG]|(j & T' & e & Hj & Hz & E & HL')].
      * left. unfold row_step in E |- *. rewrite E. eexists. split; [reflexivity|]. apply Hstep; auto.
        -- repeat split; auto. cbn [nf_table]. rewrite ET. cbn [option_map]. f_equal. unfold new_entries. rewrite map_length, seq_length. auto.
        -- unfold trained. rewrite ET. cbn [option_map]. rewrite <- Hcol. auto.
      * right. split; [exists v, j; auto|]. unfold row_step in E |- *. rewrite E. do 2 eexists. split; [reflexivity|]. apply Hkeep. repeat split; auto. cbn [nf_table]. rewrite ET. cbn [option_map]. congruence.
    + left. exists fs. split; auto. cbn [slice_of List.length] in Hlen. assert (Hr0 : rows v = 0%nat) by nia. split; auto. split; auto. split.
      * intros i0 v0 Hi0 Hv0. destruct (Nat.eq_dec i0 i) as [->|Hne]; [|apply (H1 i0); auto; lia]. assert (v0 = v) by congruence. subst v0. split; [|intros; lia].
        exists k. split; auto. cbn [n_factors with_factors]. rewrite Hfk. f_equal. unfold trained. rewrite ET. cbn [option_map]. rewrite <- ET. destruct (fac v); auto.
      * intros k0 Hk0. apply H2. intros i0 v0 Hi0. apply Hk0. lia.
  - split; auto. split; [clear; induction (n_factors n); constructor; auto; apply keeps_refl|]. split; [intros; lia|auto].
  - rewrite E. left. exists fs. rewrite numbered_len in *.
    assert (B : forall v, In v vars -> exists i, (i < List.length vars)%nat /\ nth_error vars i = Some v).
    { intros v Hv. apply In_nth_error in Hv. destruct Hv as (i & Hi). exists i. split; auto. apply nth_error_Some. congruence. }
    split; auto. split. { intros v j Hv Hj. destruct (B v Hv) as (i & Hi & E2). apply (H1 i v); auto. } split; auto.
    split. { intros v Hv. destruct (B v Hv) as (i & Hi & E2). apply (H1 i v); auto. } split; auto. intros k Hk. apply H2. intros i v Hi E2. apply Hk. eapply nth_error_In; eauto.
  - rewrite E. right. exists fs, e. split; auto. split; auto. exists v, j. split; auto. eapply nth_error_In; eauto.
Qed.

Theorem train_ok samples : (forall smp, In smp samples -> valid_sample vars smp) ->
  exists t, counted n (fun _ => samples) t /\ train n samples = update_network n t.
Proof.
  intros Hval. destruct (new_trainer_ok n Hta) as (t0 & E0 & C0). destruct (add_samples_ok n Hta samples Hval _ _ C0) as (t & E & C). exists t. split; auto.
  unfold train. rewrite E0. cbn [gbind]. rewrite E. auto.
Qed.

Theorem train_depends samples samples' : (forall smp, In smp samples -> valid_sample vars smp) -> (forall smp, In smp samples' -> valid_sample vars smp) ->
  (forall v j k, In v vars -> hit_sum v j k samples = hit_sum v j k samples') -> (forall v j, In v vars -> hit_count v j samples = hit_count v j samples') ->
  train n samples = train n samples'.
Proof.
  intros H1 H2 Hs Hc. destruct (train_ok samples H1) as (t & C & ->), (train_ok samples' H2) as (t' & C' & ->). f_equal.
  apply (counted_unique n (fun _ => samples)); auto. destruct C' as [C1 C2 C3 C4 C5]. constructor; auto.
  - intros i v Hi. rewrite (C3 i v Hi). f_equal. unfold grid. apply map_ext. intros j. apply map_ext. intros k. symmetry. apply Hs. eapply nth_error_In; eauto.
  - intros i v Hi. rewrite (C4 i v Hi). f_equal. apply map_ext. intros j. symmetry. apply Hc. eapply nth_error_In; eauto.
Qed.
End Update.
