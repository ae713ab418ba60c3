(** Calling UpdateNetwork again after further samples. *)
From Coq Require Import ZArith List Bool String Lia Permutation.
From Verif Require Import Num GoBase VarModel Tuples GoFacts VEModel NetModel SpecNet NetNew NetRow TrainModel SpecTrain TrainFacts TrainUpdate.
Import ListNotations.
Open Scope string_scope.
Open Scope list_scope.
Open Scope Z_scope.

(** Running steps after other steps that write to the same places, and no further. *)
Section Steps.
Context {St X : Type}.
Variable Inv : St -> Prop.
Variables step1 step2 : St -> X -> St * gores unit.
Variable all : list X.
Hypothesis H1 : forall s x, In x all -> Inv s -> Inv (fst (step1 s x)) /\ Inv (fst (step2 s x)).
Hypothesis H2 : forall s x, In x all -> Inv s -> step2 (fst (step1 s x)) x = step2 s x.
Hypothesis H3 : forall s x y, In x all -> In y all -> x <> y -> Inv s -> fst (step2 (fst (step1 s y)) x) = fst (step1 (fst (step2 s x)) y) /\
  snd (step2 (fst (step1 s y)) x) = snd (step2 s x) /\ snd (step1 (fst (step2 s x)) y) = snd (step1 s y).
Hypothesis H4 : forall s x, In x all -> Inv s -> snd (step1 s x) = Ok tt -> snd (step2 s x) = Ok tt.

Lemma run_move l x : incl l all -> In x all -> ~ In x l -> forall s, Inv s ->
  fst (step2 (fst (run_steps step1 s l)) x) = fst (run_steps step1 (fst (step2 s x)) l) /\ snd (step2 (fst (run_steps step1 s l)) x) = snd (step2 s x).
Proof.
  induction l as [|y l IH]; intros Hl Hx Hn s Hs; [auto|]. cbn [run_steps].
  assert (Hy : In y all) by (apply Hl; simpl; auto). destruct (H3 s x y Hx Hy) as (A1 & A2 & A3); [intros ->; apply Hn; simpl; auto|auto|].
  destruct (step1 s y) as [s' r] eqn:E. cbn [fst snd] in *. destruct (step1 (fst (step2 s x)) y) as [s2 r2] eqn:E2. cbn [fst snd] in *. subst s2 r2.
  pose proof (proj1 (H1 s y Hy Hs)) as Hs'. rewrite E in Hs'. cbn [fst] in Hs'.
  destruct r as [[]|e|p]; cbn [fst]; auto. rewrite <- A2. apply IH; auto; [intros z Hz; apply Hl; simpl; auto|intros Hin; apply Hn; simpl; auto].
Qed.
Lemma run_again l : incl l all -> NoDup l -> forall s, Inv s -> run_steps step2 (fst (run_steps step1 s l)) l = run_steps step2 s l.
Proof.
  induction l as [|x l IH]; intros Hl Hn s Hs; [auto|]. inversion Hn as [|x0 l0 Hn1 Hn2]; subst. assert (Hx : In x all) by (apply Hl; simpl; auto).
  assert (Hl' : incl l all) by (intros z Hz; apply Hl; simpl; auto).
  cbn [run_steps]. destruct (step1 s x) as [s' r] eqn:E. pose proof (H2 s x Hx Hs) as O. rewrite E in O. cbn [fst] in O.
  destruct (H1 s x Hx Hs) as [I1 I2]. rewrite E in I1. cbn [fst] in I1. destruct r as [[]|e|p]; cbn [fst]; try (rewrite O; reflexivity).
  destruct (run_move l x Hl' Hx Hn1 s' I1) as [M1 M2]. pose proof (H4 s x Hx Hs) as K. rewrite E in K. specialize (K eq_refl).
  destruct (step2 (fst (run_steps step1 s' l)) x) as [a ra] eqn:Ea. cbn [fst snd] in M1, M2. subst a ra. rewrite O.
  destruct (step2 s x) as [b rb] eqn:Eb. cbn [fst snd] in *. subst rb. apply IH; auto.
Qed.
End Steps.

Lemma upd_nth_comm {X} (l : list X) i j x y : i <> j -> upd_nth (upd_nth l i x) j y = upd_nth (upd_nth l j y) i x.
Proof.
  revert i j. induction l as [|a l IH]; intros [|i] [|j] H; cbn [upd_nth]; auto; try congruence. f_equal. apply IH. auto.
Qed.
Lemma upd_nth_id {X} (l : list X) i x : nth_error l i = Some x -> upd_nth l i x = l.
Proof. revert i. induction l as [|a l IH]; intros [|i] H; cbn [upd_nth nth_error] in *; try discriminate; [congruence|]. f_equal. auto. Qed.

Section Again.
Context {A : Type} {N : NumOps A}.

(** ** One table *)
Section Rows.
Variables (r c : nat) (F1 F2 : nat -> nat -> A) (G1 G2 : nat -> Z).
Hypothesis Hc : (0 < c)%nat.
Hypothesis Hmore : forall j, (j < r)%nat -> G1 j <> 0 -> G2 j <> 0.
Definition no_samples : gores unit := Err (EMsg "no samples for node").
Notation rs F G := (row_step (grid r c F) (map G (seq 0 r)) (Z.of_nat c)).

Lemma row_step_cases F G T j : (j < r)%nat -> List.length T = (r * c)%nat ->
  (G j = 0 /\ rs F G T (Z.of_nat j) = (T, no_samples)) \/
  (G j <> 0 /\ exists T', rs F G T (Z.of_nat j) = (T', Ok tt) /\ List.length T' = (r * c)%nat /\
    forall p, nth_error T' p = if ((j * c <=? p) && (p <? j * c + c))%nat then Some (ndiv (F j (p - j * c)%nat) (nofint (G j))) else nth_error T p).
Proof.
  intros Hj HT. pose proof (update_row_ok r c F G T j Hj HT) as U. unfold row_step. destruct (Z.eqb_spec (G j) 0) as [Z|Z].
  - left. split; auto. unfold update_row. rewrite (sget_ok _ j (G j)) by (apply nth_map_seq; auto). cbn [gbind]. rewrite Z. reflexivity.
  - right. split; auto. destruct U as (T' & -> & U). eauto.
Qed.
Lemma rows_again T : List.length T = (r * c)%nat -> let l := zrange 0 (Z.of_nat r) in
  run_steps (rs F2 G2) (fst (run_steps (rs F1 G1) T l)) l = run_steps (rs F2 G2) T l.
Proof.
  intros HT l. assert (Hl : forall x, In x l -> exists j, (j < r)%nat /\ x = Z.of_nat j).
  { intros x Hx. unfold l in Hx. rewrite zrange_nat in Hx. apply in_map_iff in Hx. destruct Hx as (j & <- & Hj). apply in_seq in Hj. exists j. split; auto. lia. }
  apply (run_again (fun T => List.length T = (r * c)%nat) (rs F1 G1) (rs F2 G2) l); auto.
  - intros s x Hx Hs. destruct (Hl x Hx) as (j & Hj & ->). split; [destruct (row_step_cases F1 G1 s j Hj Hs) as [[_ ->]|(_ & T' & -> & H & _)]|destruct (row_step_cases F2 G2 s j Hj Hs) as [[_ ->]|(_ & T' & -> & H & _)]]; auto.
  - intros s x Hx Hs. destruct (Hl x Hx) as (j & Hj & ->). destruct (row_step_cases F1 G1 s j Hj Hs) as [[_ ->]|(Z & T' & -> & HT' & P)]; auto. cbn [fst].
    destruct (row_step_cases F2 G2 s j Hj Hs) as [[Z2 E2]|(Z2 & U & -> & HU & PU)]; [exfalso; apply (Hmore j); auto|].
    destruct (row_step_cases F2 G2 T' j Hj HT') as [[Z3 E2]|(_ & U' & -> & HU' & PU')]; [contradiction|]. f_equal. apply nth_error_ext. intros p. rewrite PU, PU', P. destruct ((j * c <=? p) && (p <? j * c + c))%nat; auto.
  - intros s x y Hx Hy Hxy Hs. destruct (Hl x Hx) as (j & Hj & ->). destruct (Hl y Hy) as (k & Hk & ->). assert (Hjk : j <> k) by congruence.
    destruct (row_step_cases F1 G1 s k Hk Hs) as [[Z ->]|(Z & T' & -> & HT' & P)]; cbn [fst].
    + split; [|split; auto].
      * destruct (row_step_cases F2 G2 s j Hj Hs) as [[Z2 ->]|(Z2 & U & -> & HU & PU)]; cbn [fst]; [destruct (row_step_cases F1 G1 s k Hk Hs) as [[_ ->]|(Z3 & _)]|destruct (row_step_cases F1 G1 U k Hk HU) as [[_ ->]|(Z3 & _)]]; auto; contradiction.
      * destruct (row_step_cases F2 G2 s j Hj Hs) as [[Z2 ->]|(Z2 & U & -> & HU & PU)]; cbn [fst snd]; [destruct (row_step_cases F1 G1 s k Hk Hs) as [[_ ->]|(Z3 & _)]|destruct (row_step_cases F1 G1 U k Hk HU) as [[_ ->]|(Z3 & _)]]; auto; contradiction.
    + destruct (row_step_cases F2 G2 s j Hj Hs) as [[Z2 ->]|(Z2 & U & -> & HU & PU)]; cbn [fst snd].
      * destruct (row_step_cases F2 G2 T' j Hj HT') as [[_ ->]|(Z3 & _)]; [|contradiction]. destruct (row_step_cases F1 G1 s k Hk Hs) as [[Z3 _]|(_ & T2 & -> & HT2 & P2)]; [contradiction|]. cbn [fst snd]. split; auto.
        apply nth_error_ext. intros p. rewrite P, P2. auto.
      * destruct (row_step_cases F2 G2 T' j Hj HT') as [[Z3 _]|(_ & V & -> & HV & PV)]; [contradiction|]. destruct (row_step_cases F1 G1 U k Hk HU) as [[Z3 _]|(_ & T2 & -> & HT2 & P2)]; [contradiction|]. cbn [fst snd]. split; auto.
        apply nth_error_ext. intros p. rewrite PV, P, P2, PU.
        destruct ((j * c <=? p) && (p <? j * c + c))%nat eqn:B1; destruct ((k * c <=? p) && (p <? k * c + c))%nat eqn:B2; auto. exfalso.
        apply andb_true_iff in B1, B2. rewrite Nat.leb_le, Nat.ltb_lt in B1, B2. apply Hjk. destruct B1, B2. nia.
  - intros s x Hx Hs. destruct (Hl x Hx) as (j & Hj & ->). destruct (row_step_cases F1 G1 s j Hj Hs) as [[_ ->]|(Z & T' & -> & _)]; [discriminate|].
    destruct (row_step_cases F2 G2 s j Hj Hs) as [[Z2 _]|(_ & U & -> & _)]; auto. intros _. exfalso. apply (Hmore j); auto.
  - apply incl_refl.
  - unfold l. rewrite zrange_nat. apply FinFun.Injective_map_NoDup; [intros a b; apply Nat2Z.inj|apply seq_NoDup].
Qed.
Lemma rows_status T : List.length T = (r * c)%nat -> let l := zrange 0 (Z.of_nat r) in
  snd (run_steps (rs F1 G1) T l) = Ok tt -> snd (run_steps (rs F2 G2) T l) = Ok tt.
Proof.
  intros HT l. destruct (update_rows_ok r c F1 G1 T Hc HT) as [[E1 HG]|(j & T' & e & _ & _ & E1 & _)]; unfold l; rewrite E1; [|discriminate]. intros _.
  destruct (update_rows_ok r c F2 G2 T Hc HT) as [[-> _]|(j & T' & e & Hj & Z & _)]; auto. exfalso. apply (Hmore j); auto.
Qed.
Lemma rows_length F G T : List.length T = (r * c)%nat -> List.length (fst (run_steps (rs F G) T (zrange 0 (Z.of_nat r)))) = (r * c)%nat.
Proof.
  intros HT. destruct (update_rows_ok r c F G T Hc HT) as [[-> _]|(j & T' & e & _ & _ & -> & H)]; cbn [fst]; [|congruence]. unfold new_entries. rewrite map_length, seq_length. auto.
Qed.
Lemma rows_same T T0 F G : List.length T = (r * c)%nat -> List.length T0 = (r * c)%nat -> snd (run_steps (rs F G) T (zrange 0 (Z.of_nat r))) = snd (run_steps (rs F G) T0 (zrange 0 (Z.of_nat r))).
Proof.
  intros HT HT0. assert (H : forall l, incl l (zrange 0 (Z.of_nat r)) -> forall T T0, List.length T = (r * c)%nat -> List.length T0 = (r * c)%nat -> snd (run_steps (rs F G) T l) = snd (run_steps (rs F G) T0 l)).
  { clear T T0 HT HT0. induction l as [|x l IH]; intros Hl T T0 HT HT0; auto. cbn [run_steps]. assert (Hx : exists j, (j < r)%nat /\ x = Z.of_nat j).
    { specialize (Hl x (or_introl eq_refl)). rewrite zrange_nat in Hl. apply in_map_iff in Hl. destruct Hl as (j & <- & Hj). apply in_seq in Hj. exists j. split; auto. lia. }
    destruct Hx as (j & Hj & ->). destruct (row_step_cases F G T j Hj HT) as [[Z ->]|(Z & T' & -> & HT' & _)]; destruct (row_step_cases F G T0 j Hj HT0) as [[Z' ->]|(Z' & T0' & -> & HT0' & _)]; try contradiction; auto.
    apply IH; auto. intros z Hz. apply Hl. simpl. auto. }
  apply H; auto. apply incl_refl.
Qed.
End Rows.

(** ** The network *)
Variable n : network A.
Hypothesis Hta : trainable n.
Notation vars := (n_vars n).

(** What UpdateNetwork does to the factor of variable number [i]. *)
Definition node_step (t : trainer A) (i : nat) (f : nfactor A) : nfactor A * gores unit :=
  match nf_table f, nth_error (tr_data t) i, nth_error (tr_counter t) i with
  | Some T, Some d, Some g =>
    let '(T', r) := run_steps (row_step d g (nf_columns f)) T (zrange 0 (Z.quot (zlen T) (nf_columns f))) in
    (mkNFactor (nf_for f) (nf_given f) (Some T') (nf_outcomes f) (nf_columns f), r)
  | _, _, _ => (f, Ok tt)
  end.
Definition shaped (fs : list (nfactor A)) : Prop := Forall2 keeps (n_factors n) fs.
Lemma shaped_at fs k f : shaped fs -> nth_error (n_factors n) k = Some f -> exists f', nth_error fs k = Some f' /\ keeps f f'.
Proof.
  intros H. revert k. induction H as [|a b l l' Hab Hl IH]; intros [|k] E; try discriminate; simpl in *; eauto. injection E as <-. eauto.
Qed.
Lemma shaped_upd fs k f g : shaped fs -> nth_error (n_factors n) k = Some f -> keeps f g -> shaped (upd_nth fs k g).
Proof.
  intros H. revert k. unfold shaped. induction H as [|a b l l' Hab Hl IH]; intros [|k] E Hg; try discriminate; simpl in *; constructor; auto. congruence.
Qed.
Section Node.
Variables (samples : list (list Z * option (list A))) (t : trainer A).
Hypothesis HC : counted n (fun _ => samples) t.
Lemma node_shape i v f : nth_error vars i = Some v -> keeps (fac n v) f -> keeps (fac n v) (fst (node_step t i f)) /\ keeps f (fst (node_step t i f)).
Proof.
  intros Hi Hk. unfold node_step. destruct (nf_table f) as [T|] eqn:ET; [|split; auto; apply keeps_refl]. rewrite (ct_data _ _ _ HC i v Hi), (ct_count _ _ _ HC i v Hi).
  pose proof (nth_error_In _ _ Hi) as Hv. destruct (fac_spec n Hta v Hv) as (_ & _ & _ & _ & Hcol & Hc & _ & Hlen). destruct Hk as (K1 & K2 & K3 & K4 & K5).
  rewrite ET in K5. destruct (nf_table (fac n v)) as [T0|] eqn:ET0; [|discriminate]. cbn [option_map slice_of] in K5, Hlen. injection K5 as K5. rewrite K4, Hcol.
  assert (HT : List.length T = (rows n v * cols v)%nat) by congruence.
  assert (Hq : Z.quot (zlen T) (Z.of_nat (cols v)) = Z.of_nat (rows n v)) by (unfold zlen; rewrite HT, Nat2Z.inj_mul; apply Z.quot_mul; lia). rewrite Hq.
  pose proof (rows_length (rows n v) (cols v) Hc (fun j k => hit_sum n v j k samples) (fun j => hit_count n v j samples) T HT) as HL.
  destruct (run_steps _ T _) as [T' r]. cbn [fst] in *. split; repeat split; cbn [nf_for nf_given nf_outcomes nf_columns nf_table option_map]; try congruence; rewrite ?ET, ?ET0; cbn [option_map]; congruence.
Qed.
Lemma update_node_step fs i v : nth_error vars i = Some v -> shaped fs ->
  exists k f, nv_factor v = Some k /\ nth_error (n_factors n) k = Some (fac n v) /\ nth_error fs k = Some f /\ keeps (fac n v) f /\
    update_node t fs (Z.of_nat i, v) = (upd_nth fs k (fst (node_step t i f)), snd (node_step t i f)).
Proof.
  intros Hi Hs. pose proof (nth_error_In _ _ Hi) as Hv. destruct (factor_index n Hta v Hv) as (k & Ek & Hk). destruct (shaped_at fs k _ Hs Hk) as (f & Hf & Hkp).
  exists k, f. do 4 (split; auto). unfold update_node, node_step. rewrite Ek, Hf, (sget_ok _ _ _ (ct_data _ _ _ HC i v Hi)), (sget_ok _ _ _ (ct_count _ _ _ HC i v Hi)), (ct_data _ _ _ HC i v Hi), (ct_count _ _ _ HC i v Hi).
  destruct (fac_spec n Hta v Hv) as (_ & _ & _ & _ & Hcol & Hc & _ & _). destruct Hkp as (_ & _ & _ & K4 & _). rewrite K4, Hcol. replace (Z.of_nat (cols v) =? 0) with false by lia.
  destruct (nf_table f) as [T|] eqn:ET; [|cbn [fst snd]; rewrite upd_nth_id; auto].
  fold (row_step (grid (rows n v) (cols v) (fun j k => hit_sum n v j k samples)) (map (fun j => hit_count n v j samples) (seq 0 (rows n v))) (Z.of_nat (cols v))).
  unfold row_step. destruct (run_steps _ T _) as [T' r]. reflexivity.
Qed.
End Node.

Lemma count_more v j s1 s2 : hit_count n v j s1 <> 0 -> hit_count n v j (s1 ++ s2) <> 0.
Proof.
  unfold hit_count. intros H E. apply H. unfold count_of, zlen in *. rewrite filter_app, app_length in E. destruct (is_utility v); lia.
Qed.

Theorem update_again s1 s2 t1 t2 : counted n (fun _ => s1) t1 -> counted n (fun _ => s1 ++ s2) t2 ->
  update_network (fst (update_network n t1)) t2 = update_network n t2.
Proof.
  intros C1 C2. unfold update_network.
  destruct (run_steps (update_node t1) (n_factors n) (combine (zrange 0 (zlen vars)) vars)) as [fs1 r1] eqn:E1.
  cbn [fst n_vars n_factors n_name n_info n_policies n_ve n_names n_tui]. replace fs1 with (fst (run_steps (update_node t1) (n_factors n) (combine (zrange 0 (zlen vars)) vars))) by (rewrite E1; auto).
  rewrite (run_again shaped (update_node t1) (update_node t2) (combine (zrange 0 (zlen vars)) vars)); auto.
  - intros fs x Hx Hs. apply In_nth_error in Hx. destruct Hx as (i & Hx). rewrite numbered_at in Hx. destruct (nth_error vars i) as [v|] eqn:Hi; [|discriminate]. injection Hx as <-.
    destruct (update_node_step s1 t1 C1 fs i v Hi Hs) as (k & f & _ & Hk & _ & Hkp & ->). destruct (update_node_step _ t2 C2 fs i v Hi Hs) as (k' & f' & _ & Hk' & _ & Hkp' & ->). cbn [fst].
    split; [apply (shaped_upd fs k (fac n v)); auto; apply (node_shape s1 t1 C1 i v f Hi Hkp)|apply (shaped_upd fs k' (fac n v)); auto; apply (node_shape _ t2 C2 i v f' Hi Hkp')].
  - intros fs x Hx Hs. apply In_nth_error in Hx. destruct Hx as (i & Hx). rewrite numbered_at in Hx. destruct (nth_error vars i) as [v|] eqn:Hi; [|discriminate]. injection Hx as <-.
    destruct (update_node_step s1 t1 C1 fs i v Hi Hs) as (k & f & Ek & Hk & Hf & Hkp & E). rewrite E. cbn [fst].
    assert (Hs1 : shaped (upd_nth fs k (fst (node_step t1 i f)))) by (apply (shaped_upd fs k (fac n v)); auto; apply (node_shape s1 t1 C1 i v f Hi Hkp)).
    destruct (update_node_step _ t2 C2 _ i v Hi Hs1) as (k' & f' & Ek' & _ & Hf' & Hkp' & ->). destruct (update_node_step _ t2 C2 fs i v Hi Hs) as (k2 & f2 & Ek2 & _ & Hf2 & _ & ->).
    assert (k' = k) by congruence. assert (k2 = k) by congruence. subst k' k2. assert (f2 = f) by congruence. subst f2. assert (Hkl : (k < List.length fs)%nat) by (apply nth_error_Some; congruence).
    rewrite upd_nth_same in Hf' by auto. injection Hf' as <-. rewrite upd_nth_twice.
    assert (G : node_step t2 i (fst (node_step t1 i f)) = node_step t2 i f); [|rewrite G; auto].
    pose proof (nth_error_In _ _ Hi) as Hv. destruct (fac_spec n Hta v Hv) as (_ & _ & _ & _ & Hcol & Hc & _ & Hlen). pose proof Hkp as (_ & _ & _ & K4 & K5).
    unfold node_step. destruct (nf_table f) as [T|] eqn:ET; [|cbn [fst]; rewrite ET; auto].
    destruct (nf_table (fac n v)) as [T0|] eqn:ET0; [|discriminate]. cbn [option_map slice_of] in K5, Hlen. injection K5 as K5. assert (HT : List.length T = (rows n v * cols v)%nat) by congruence.
    rewrite (ct_data _ _ _ C1 i v Hi), (ct_count _ _ _ C1 i v Hi), (ct_data _ _ _ C2 i v Hi), (ct_count _ _ _ C2 i v Hi). rewrite K4, Hcol.
    assert (Hq : forall X : list A, List.length X = (rows n v * cols v)%nat -> Z.quot (zlen X) (Z.of_nat (cols v)) = Z.of_nat (rows n v)) by (intros X HX; unfold zlen; rewrite HX, Nat2Z.inj_mul; apply Z.quot_mul; lia). rewrite (Hq T HT).
    pose proof (rows_length (rows n v) (cols v) Hc (fun j k => hit_sum n v j k s1) (fun j => hit_count n v j s1) T HT) as HL.
    pose proof (rows_again (rows n v) (cols v) (fun j k => hit_sum n v j k s1) (fun j k => hit_sum n v j k (s1 ++ s2)) (fun j => hit_count n v j s1) (fun j => hit_count n v j (s1 ++ s2)) Hc (fun j _ => count_more v j s1 s2) T HT) as HA. cbn zeta in HA.
    destruct (run_steps (row_step (grid (rows n v) (cols v) (fun j k => hit_sum n v j k s1)) _ _) T _) as [T1 q1]. cbn [fst nf_table nf_columns nf_for nf_given nf_outcomes] in *. rewrite (Hq T1 HL), HA. auto.
  - intros fs x y Hx Hy Hxy Hs. apply In_nth_error in Hx. destruct Hx as (i & Hx). rewrite numbered_at in Hx. destruct (nth_error vars i) as [v|] eqn:Hi; [|discriminate]. injection Hx as <-.
    apply In_nth_error in Hy. destruct Hy as (j & Hy). rewrite numbered_at in Hy. destruct (nth_error vars j) as [w|] eqn:Hj; [|discriminate]. injection Hy as <-.
    assert (Hvw : v <> w). { intros <-. apply Hxy. pose proof (position_at n Hta i v Hi). pose proof (position_at n Hta j v Hj). f_equal. lia. }
    destruct (update_node_step s1 t1 C1 fs j w Hj Hs) as (k & f & Ek & Hk & Hf & Hkp & E). rewrite E. cbn [fst snd].
    destruct (update_node_step _ t2 C2 fs i v Hi Hs) as (m & g & Em & Hm & Hg & Hgp & E2). rewrite E2. cbn [fst snd].
    assert (Hkm : k <> m). { intros ->. apply Hvw. apply (factor_index_inj n Hta v w m); auto; eapply nth_error_In; eauto. }
    assert (Hs1 : shaped (upd_nth fs k (fst (node_step t1 j f)))) by (apply (shaped_upd fs k (fac n w)); auto; apply (node_shape s1 t1 C1 j w f Hj Hkp)).
    assert (Hs2 : shaped (upd_nth fs m (fst (node_step t2 i g)))) by (apply (shaped_upd fs m (fac n v)); auto; apply (node_shape _ t2 C2 i v g Hi Hgp)).
    destruct (update_node_step _ t2 C2 _ i v Hi Hs1) as (m' & g' & Em' & _ & Hg' & _ & ->). assert (m' = m) by congruence. subst m'. rewrite upd_nth_other in Hg' by auto. assert (g' = g) by congruence. subst g'.
    destruct (update_node_step _ t1 C1 _ j w Hj Hs2) as (k' & f' & Ek' & _ & Hf' & _ & ->). assert (k' = k) by congruence. subst k'. rewrite upd_nth_other in Hf' by auto. assert (f' = f) by congruence. subst f'.
    cbn [fst snd]. split; auto. apply upd_nth_comm. auto.
  - intros fs x Hx Hs. apply In_nth_error in Hx. destruct Hx as (i & Hx). rewrite numbered_at in Hx. destruct (nth_error vars i) as [v|] eqn:Hi; [|discriminate]. injection Hx as <-.
    destruct (update_node_step s1 t1 C1 fs i v Hi Hs) as (k & f & Ek & Hk & Hf & Hkp & ->). destruct (update_node_step _ t2 C2 fs i v Hi Hs) as (k' & f' & Ek' & Hk' & Hf' & _ & ->). cbn [snd].
    assert (k' = k) by congruence. subst k'. assert (f' = f) by congruence. subst f'.
    pose proof (nth_error_In _ _ Hi) as Hv. destruct (fac_spec n Hta v Hv) as (_ & _ & _ & _ & Hcol & Hc & _ & Hlen). pose proof Hkp as (_ & _ & _ & K4 & K5).
    unfold node_step. destruct (nf_table f) as [T|] eqn:ET; auto.
    destruct (nf_table (fac n v)) as [T0|] eqn:ET0; [|discriminate]. cbn [option_map slice_of] in K5, Hlen. injection K5 as K5. assert (HT : List.length T = (rows n v * cols v)%nat) by congruence.
    rewrite (ct_data _ _ _ C1 i v Hi), (ct_count _ _ _ C1 i v Hi), (ct_data _ _ _ C2 i v Hi), (ct_count _ _ _ C2 i v Hi). rewrite K4, Hcol.
    assert (Hq : Z.quot (zlen T) (Z.of_nat (cols v)) = Z.of_nat (rows n v)) by (unfold zlen; rewrite HT, Nat2Z.inj_mul; apply Z.quot_mul; lia). rewrite Hq.
    pose proof (rows_status (rows n v) (cols v) (fun j k => hit_sum n v j k s1) (fun j k => hit_sum n v j k (s1 ++ s2)) (fun j => hit_count n v j s1) (fun j => hit_count n v j (s1 ++ s2)) Hc (fun j _ => count_more v j s1 s2) T HT) as HA. cbn zeta in HA.
    destruct (run_steps _ T _) as [T1 q1]. destruct (run_steps _ T _) as [T2 q2]. cbn [snd] in *. auto.
  - apply incl_refl.
  - apply (NoDup_nth_error (combine (zrange 0 (zlen vars)) vars)). intros i j Hi E. rewrite !numbered_at in E. rewrite numbered_len in Hi. destruct (nth_error vars i) eqn:Ei; [|apply nth_error_None in Ei; lia].
    destruct (nth_error vars j) eqn:Ej; [|discriminate]. injection E. lia.
  - unfold shaped. clear. induction (n_factors n); constructor; auto. apply keeps_refl.
Qed.
End Again.
