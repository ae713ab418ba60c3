(** Training with copies of samples. *)
From Coq Require Import ZArith QArith Qcanon List Bool String Lia Permutation.
From Verif Require Import Num GoBase VarModel Tuples GoFacts SpecFactor XnumFacts VEModel NetModel SpecNet NetNew NetRow TrainModel SpecTrain TrainFacts TrainUpdate TrainThms TrainContinue LikelihoodSums.
Import ListNotations.
Open Scope string_scope.
Open Scope list_scope.
Open Scope Z_scope.

Lemma run_steps_same {St X} (Inv : St -> Prop) (step1 step2 : St -> X -> St * gores unit) l : (forall s x, In x l -> Inv s -> step1 s x = step2 s x /\ Inv (fst (step1 s x))) ->
  forall s, Inv s -> run_steps step1 s l = run_steps step2 s l.
Proof.
  induction l as [|x l IH]; intros H s Hs; auto. cbn [run_steps]. destruct (H s x (or_introl eq_refl) Hs) as (E & HI). rewrite <- E. destruct (step1 s x) as [s' [u|e|p]]; auto. apply IH; auto. intros; apply H; auto. now right.
Qed.

Section Quotients.
Context {A : Type} {N : NumOps A}.
Lemma rows_quotients (r c : nat) (F1 F2 : nat -> nat -> A) (G1 G2 : nat -> Z) T : (0 < c)%nat -> List.length T = (r * c)%nat ->
  (forall j, (j < r)%nat -> G1 j = 0 <-> G2 j = 0) -> (forall j k, (j < r)%nat -> G1 j <> 0 -> ndiv (F1 j k) (nofint (G1 j)) = ndiv (F2 j k) (nofint (G2 j))) ->
  run_steps (row_step (grid r c F1) (map G1 (seq 0 r)) (Z.of_nat c)) T (zrange 0 (Z.of_nat r)) = run_steps (row_step (grid r c F2) (map G2 (seq 0 r)) (Z.of_nat c)) T (zrange 0 (Z.of_nat r)).
Proof.
  intros Hc HT HG HF. apply (run_steps_same (fun T => List.length T = (r * c)%nat)); auto. intros T1 x Hx HT1. rewrite zrange_nat in Hx. apply in_map_iff in Hx. destruct Hx as (j & <- & Hj). apply in_seq in Hj.
  assert (Hjr : (j < r)%nat) by lia. specialize (HG j Hjr).
  destruct (row_step_cases r c F1 G1 T1 j Hjr HT1) as [[Z1 E1]|(Z1 & U1 & E1 & L1 & P1)]; destruct (row_step_cases r c F2 G2 T1 j Hjr HT1) as [[Z2 E2]|(Z2 & U2 & E2 & L2 & P2)]; rewrite E1, E2; cbn [fst]; try tauto.
  split; auto. f_equal. apply nth_error_ext. intros p. rewrite P1, P2. destruct (_ && _); auto. f_equal. auto.
Qed.
Variable n : network A.
Hypothesis Hta : trainable n.
Notation vars := (n_vars n).
Theorem train_quotients s1 s2 : (forall smp, In smp s1 -> valid_sample vars smp) -> (forall smp, In smp s2 -> valid_sample vars smp) ->
  (forall v j, In v vars -> hit_count n v j s1 = 0 <-> hit_count n v j s2 = 0) ->
  (forall v j k, In v vars -> hit_count n v j s1 <> 0 -> ndiv (hit_sum n v j k s1) (nofint (hit_count n v j s1)) = ndiv (hit_sum n v j k s2) (nofint (hit_count n v j s2))) ->
  train n s1 = train n s2.
Proof.
  intros V1 V2 HG HF. destruct (train_ok n Hta s1 V1) as (t1 & C1 & ->). destruct (train_ok n Hta s2 V2) as (t2 & C2 & ->). unfold update_network.
  rewrite (run_steps_same (shaped n) (update_node t1) (update_node t2)); auto.
  2: { unfold shaped. induction (n_factors n); constructor; auto. apply keeps_refl. }
  intros fs x Hx Hs. apply In_nth_error in Hx. destruct Hx as (i & Hx). rewrite numbered_at in Hx. destruct (nth_error vars i) as [v|] eqn:Hi; [|discriminate]. injection Hx as <-.
  destruct (update_node_step n Hta s1 t1 C1 fs i v Hi Hs) as (k & f & Ek & Hk & Hf & Hkp & E1). destruct (update_node_step n Hta s2 t2 C2 fs i v Hi Hs) as (k2 & f2 & Ek2 & _ & Hf2 & _ & E2).
  assert (k2 = k) by congruence. subst k2. assert (f2 = f) by congruence. subst f2.
  rewrite E1, E2. split; [|cbn [fst]; apply (shaped_upd n fs k (fac n v)); auto; apply (node_shape n Hta s1 t1 C1 i v f Hi Hkp)].
  assert (G : node_step t1 i f = node_step t2 i f); [|rewrite G; auto]. pose proof (nth_error_In _ _ Hi) as Hv.
  unfold node_step. destruct (nf_table f) as [T|] eqn:ET; auto. destruct (fac_spec n Hta v Hv) as (_ & _ & _ & _ & Hcol & Hc & _ & Hlen). pose proof Hkp as (_ & _ & _ & K4 & K5).
  rewrite ET in K5. destruct (nf_table (fac n v)) as [T0|] eqn:ET0; [|discriminate]. cbn [option_map slice_of] in K5, Hlen. injection K5 as K5. assert (HT : List.length T = (rows n v * cols v)%nat) by congruence.
  rewrite (ct_data _ _ _ C1 i v Hi), (ct_count _ _ _ C1 i v Hi), (ct_data _ _ _ C2 i v Hi), (ct_count _ _ _ C2 i v Hi). rewrite K4, Hcol.
  assert (Hq : Z.quot (zlen T) (Z.of_nat (cols v)) = Z.of_nat (rows n v)) by (unfold zlen; rewrite HT, Nat2Z.inj_mul; apply Z.quot_mul; lia). rewrite Hq.
  rewrite (rows_quotients (rows n v) (cols v) (fun j k => hit_sum n v j k s1) (fun j k => hit_sum n v j k s2) (fun j => hit_count n v j s1) (fun j => hit_count n v j s2) T Hc HT); auto.
Qed.
End Quotients.

(** ** Copies *)
Definition copies {X} (c : nat) (l : list X) : list X := List.concat (repeat l c).
Lemma copies_in {X} c (l : list X) x : In x (copies c l) -> In x l.
Proof. unfold copies. intros H. apply in_concat in H. destruct H as (l' & Hl & Hx). apply repeat_spec in Hl. subst. auto. Qed.
Lemma copies_filter {X} (p : X -> bool) c l : filter p (copies c l) = copies c (filter p l).
Proof. unfold copies. induction c as [|c IH]; cbn [repeat List.concat filter]; auto. rewrite filter_app, IH. auto. Qed.
Lemma copies_map {X Y} (f : X -> Y) c l : map f (copies c l) = copies c (map f l).
Proof. unfold copies. induction c as [|c IH]; cbn [repeat List.concat map]; auto. rewrite map_app, IH. auto. Qed.
Lemma copies_length {X} c (l : list X) : List.length (copies c l) = (c * List.length l)%nat.
Proof. unfold copies. induction c as [|c IH]; cbn [repeat List.concat]; auto. rewrite app_length, IH. lia. Qed.
(** Sums of exact numbers. *)
Lemma add_from (l : list xnum) : forall a, fold_left nadd l a = nadd a (fold_left nadd l n0).
Proof.
  induction l as [|x l IH]; intros a; cbn [fold_left].
  - destruct a as [q| | |]; auto. cbn. f_equal. ring.
  - rewrite IH, (IH (nadd n0 x)). destruct a as [q| | |], x as [q'| | |], (fold_left nadd l n0) as [q''| | |]; cbn; auto; try (f_equal; ring).
Qed.
Lemma add_copies c (l : list xnum) : (0 < c)%nat -> fold_left nadd (copies c l) n0 = match fold_left nadd l n0 with Fin q => Fin (qz (Z.of_nat c) * q) | x => x end.
Proof.
  intros Hc. destruct c as [|c]; [lia|]. clear Hc. induction c as [|c IH].
  - unfold copies. cbn [repeat List.concat]. rewrite app_nil_r. destruct (fold_left nadd l n0); auto. f_equal. change (qz (Z.of_nat 1)) with 1%Qc. ring.
  - unfold copies in *. change (repeat l (S (S c))) with (l :: repeat l (S c)). cbn [List.concat]. rewrite fold_left_app, add_from, IH. clear IH.
    destruct (fold_left nadd l n0) as [q| | |]; auto. cbn [nadd xnum_ops xadd]. f_equal. rewrite (Nat2Z.inj_succ (S c)). unfold Z.succ. rewrite qz_add. change (qz 1) with 1%Qc. ring.
Qed.
Lemma not_below z : 0 < z -> qlt (Q2Qc (inject_Z z)) 0%Qc = false.
Proof.
  intros Hz. destruct (qlt _ _) eqn:E; auto. apply qlt_spec in E. exfalso. apply (Qclt_not_le _ _ E). rewrite <- (Z2Nat.id z) by lia. apply qn_nonneg.
Qed.
Theorem train_copies (n : network xnum) c samples : trainable n -> (0 < c)%nat -> (forall smp, In smp samples -> valid_sample (n_vars n) smp) -> train n (copies c samples) = train n samples.
Proof.
  intros Hta Hc Hval. assert (HC : forall v j, hit_count n v j (copies c samples) = Z.of_nat c * hit_count n v j samples).
  { intros v j. unfold hit_count, count_of, zlen. rewrite copies_filter, copies_length. rewrite Nat2Z.inj_mul. ring. }
  apply train_quotients; auto.
  - intros smp Hs. apply Hval. eapply copies_in, Hs.
  - intros v j _. rewrite HC. lia.
  - intros v j k Hv HN. rewrite HC in *.
    assert (HS : hit_sum n v j k (copies c samples) = match hit_sum n v j k samples with Fin q => Fin (qz (Z.of_nat c) * q) | x => x end).
    { unfold hit_sum. destruct (is_utility v); [destruct (k =? 0)%nat|].
      - rewrite copies_filter, copies_map. apply add_copies; auto.
      - cbn. f_equal. ring.
      - rewrite copies_filter. set (l := filter _ samples). assert (E : forall (l : list (sample xnum)) (a : xnum), fold_left (fun x _ => nadd x n1) l a = fold_left nadd (map (fun _ => n1) l) a).
        { intros l0. induction l0; intros a0; cbn [map fold_left]; auto. }
        rewrite !E, copies_map. apply add_copies; auto. }
    rewrite HS. set (h := hit_count n v j samples) in *. assert (Hh : h <> 0) by lia. assert (Hpos : 0 < h). { unfold h, hit_count, count_of, zlen in *. destruct (is_utility v); lia. }
    destruct (hit_sum n v j k samples) as [q| | |]; auto.
    + rewrite !div_count by auto. f_equal. rewrite qz_mul. field. split; intros E; change 0%Qc with (qz 0) in E; apply qz_inj in E; lia.
    + cbn [ndiv nofint xnum_ops xdiv]. rewrite !not_below by lia. reflexivity.
    + cbn [ndiv nofint xnum_ops xdiv]. rewrite !not_below by lia. reflexivity.
Qed.
