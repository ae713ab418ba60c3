(** Lemmas about rows that share the memory of their table. *)
From Coq Require Import ZArith List Bool String Lia.
From Verif Require Import Num GoBase GoFacts VarModel SpecFactor FactorFacts FactorThms VEModel NetModel SpecNet NetRow TrainModel HeapVarModel HeapSim HeapVar HeapVEModel HeapVE HeapNetModel
  HeapRowModel SpecHeap SpecHeapRow HeapNet HeapTrain HeapSession.
Import ListNotations.
Open Scope string_scope.
Open Scope list_scope.
Open Scope Z_scope.

Section HeapRow.
Context {A : Type} {N : NumOps A}.
Implicit Types (h : heap A) (v : network A) (n : network nat).

(** The row of the value model and the part in memory *)
Lemma part_of_spec h r d lo hi : (r = [] /\ d = [] \/ exists a, r = ref a /\ nth_error h a = Some d) ->
  part_of r lo hi h = (h, match sslice d lo hi with Ok _ => Ok (mkPart r lo hi) | Err e => Err e | Panic q => Panic q end).
Proof.
  intros H. unfold part_of, bind, load_slice, lift, ret. destruct H as [[-> ->]|(a & -> & E)].
  - destruct (sslice [] lo hi); reflexivity.
  - unfold ref. cbn [addr hd]. unfold load. rewrite E. destruct (sslice d lo hi); reflexivity.
Qed.
Lemma read_part_spec h r d lo hi row : (r = [] /\ d = [] \/ exists a, r = ref a /\ nth_error h a = Some d) -> sslice d lo hi = Ok row -> read_part h (mkPart r lo hi) = Some row.
Proof.
  intros H. unfold sslice. destruct (_ || _ || _); [discriminate|]. intros E. injection E as <-. unfold read_part. cbn [p_of p_lo p_hi].
  destruct H as [[-> ->]|(a & -> & E)]; [rewrite skipn_nil, firstn_nil; reflexivity|]. unfold ref, read_slice. rewrite E. reflexivity.
Qed.

(** Index and row index *)
Lemma index_of_row (f : factor nat) t k i ln : f_row_index f t = Ok (i, ln) -> f_index f (t ++ [k]) = Ok (i + k).
Proof.
  unfold f_row_index, f_index, vars_index. destruct (negb _) eqn:E; [discriminate|]. apply negb_false_iff, Z.eqb_eq in E.
  assert (Hne : f_vars f <> []) by (intros C; rewrite C in E; unfold zlen in E; simpl in E; lia).
  destruct (exists_last Hne) as (vs & w & Ev). rewrite Ev in *. clear Hne.
  assert (L : List.length t = List.length vs) by (unfold zlen in E; rewrite app_length in E; simpl in E; lia).
  replace (zlen (vs ++ [w]) - 1) with (Z.of_nat (List.length vs)) by (unfold zlen; rewrite app_length; simpl; lia).
  rewrite (sget_ok (vs ++ [w]) (List.length vs) w) by (rewrite nth_error_app2, Nat.sub_diag by lia; auto). cbn [gbind]. rewrite removelast_last. intros H. injection H as <- <-.
  replace (negb (zlen (t ++ [k]) =? zlen (vs ++ [w]))) with false by (unfold zlen; rewrite !app_length; simpl; rewrite L, Z.eqb_refl; reflexivity).
  f_equal. clear E Ev f. revert t L. assert (G : forall vs t, List.length t = List.length vs ->
    let x := fold_right (fun '(v, i) '(index, multiplier) => (index + i * multiplier, multiplier * v_out v)) (0, 1) (combine (vs ++ [w]) (t ++ [k])) in
    let y := fold_right (fun '(v, i) '(idx, stride) => (idx + i * stride, stride * v_out v)) (0, v_out w) (combine vs t) in fst x = fst y + k /\ snd x = snd y).
  { clear. induction vs as [|v vs IH]; intros [|i t] L; try discriminate; [cbn [app combine fold_right]; cbn [fst snd]; lia|].
    cbn [app combine fold_right]. specialize (IH t ltac:(simpl in L; lia)). cbv zeta in IH. cbv zeta.
    destruct (fold_right _ (0, 1) _) as [x1 x2], (fold_right _ (0, v_out w) _) as [y1 y2]. cbn [fst snd] in *. destruct IH as [-> ->]. split; lia. }
  intros t L. exact (proj1 (G vs t L)).
Qed.

(** Writing to a part *)
Lemma part_set_spec h p k x h' a d : p_of p = ref a -> nth_error h a = Some d -> part_set p k x h = (h', Ok tt) ->
  0 <= k < p_hi p - p_lo p /\ 0 <= p_lo p + k < zlen d /\ h' = upd_nth h a (upd_nth d (Z.to_nat (p_lo p + k)) x).
Proof.
  intros Ep Ed. unfold part_set. destruct (_ || _) eqn:B; [intros E; discriminate E|]. apply orb_false_iff in B. destruct B as [B1 B2].
  rewrite Ep. cbn [addr hd ref]. unfold put_elem, bind, load, lift. rewrite Ed. unfold sset. destruct (_ || _) eqn:C; [intros E; discriminate E|]. apply orb_false_iff in C. destruct C as [C1 C2].
  intros E. injection E as <-. repeat split; lia.
Qed.

Lemma nth_split_upd {X} (l : list X) j x y : nth_error l j = Some x -> exists l1 l2, l = l1 ++ x :: l2 /\ upd_nth l j y = l1 ++ y :: l2.
Proof.
  revert j. induction l as [|z l IH]; intros [|j] E; try discriminate; cbn [nth_error] in E.
  - injection E as ->. exists [], l. auto.
  - destruct (IH j E) as (l1 & l2 & -> & E2). exists (z :: l1), l2. cbn [upd_nth app]. rewrite E2. auto.
Qed.
Lemma Forall2_upd {X Y} (R : X -> Y -> Prop) l l' j x y : Forall2 R l l' -> nth_error l j = Some x -> R x y -> Forall2 R l (upd_nth l' j y).
Proof.
  intros H. revert j. induction H as [|a b l l' Hab H IH]; intros [|j] E HR; try discriminate; cbn [nth_error upd_nth] in *.
  - injection E as ->. constructor; auto.
  - constructor; auto.
Qed.
Lemma Forall2_nth {X Y} (R : X -> Y -> Prop) l l' j x : Forall2 R l l' -> nth_error l j = Some x -> exists y, nth_error l' j = Some y /\ R x y.
Proof.
  intros H. revert j. induction H as [|a b l l' Hab H IH]; intros [|j] E; try discriminate; cbn [nth_error] in *; eauto. injection E as ->. eauto.
Qed.
Lemma sset_fresh h j l l' f a d g' : Forall2 (same_nfactor h) l l' -> nth_error l j = Some f -> nf_table f = Some (ref a) -> NoDup (flat_map table_array l) ->
  same_nfactor (upd_nth h a d) f g' -> Forall2 (same_nfactor (upd_nth h a d)) l (upd_nth l' j g').
Proof.
  intros H. revert j. induction H as [|x y l l' Hxy H IH]; intros [|j] E Et Hn Hg; try discriminate; cbn [nth_error upd_nth flat_map] in *.
  - injection E as ->. constructor; [exact Hg|]. apply (others_same h l l' a d H). unfold table_array in Hn. rewrite Et in Hn. cbn [app addr hd ref] in Hn. apply NoDup_cons_iff in Hn. tauto.
  - assert (Ha : In a (flat_map table_array l)). { apply in_flat_map. exists f. split; [eapply nth_error_In; eauto|]. unfold table_array. rewrite Et. left. reflexivity. }
    constructor.
    + destruct Hxy as (H1 & H2 & H3 & H4 & H5). repeat split; auto. unfold same_slice in *. unfold table_array in Hn. destruct (nf_table x) as [r|] eqn:Er, (nf_table y) as [w|]; auto.
      destruct H5 as (b & -> & Eb). exists b. split; auto. cbn [app addr hd ref] in Hn. rewrite upd_nth_other; auto. intros ->. apply NoDup_cons_iff in Hn. tauto.
    + apply IH; auto. eapply nodup_app_r; eauto.
Qed.

Lemma nf_row_index_inv (f : nfactor nat) indices i : nf_row_index f indices = Ok (i, true) -> i = row_number (nf_outcomes f) indices.
Proof.
  intros E. assert (L : zlen indices = zlen (nf_outcomes f)). { unfold nf_row_index in E. destruct (negb _) eqn:B; [discriminate|]. apply negb_false_iff, Z.eqb_eq in B. exact B. }
  rewrite (row_index_spec f indices L) in E. destruct (existsb _ _); [discriminate|]. injection E as <-. reflexivity.
Qed.

Lemma nf_row_inv h f indices h1 p g : same_nfactor h f g -> h_nf_row f indices h = (h1, Ok (p, true)) ->
  h1 = h /\ p_lo p = row_number (nf_outcomes f) indices /\ p_hi p = p_lo p + nf_columns f /\ p_of p = slice_of (nf_table f).
Proof.
  intros (_ & _ & _ & _ & HS). unfold h_nf_row, bind, lift, ret. destruct (nf_row_index f indices) as [[i ok]|e|q] eqn:E; [|intros H; discriminate H..].
  destruct ok; cbn [negb]; [|intros H; discriminate H]. apply nf_row_index_inv in E. subst i.
  rewrite (part_of_spec h (slice_of (nf_table f)) (slice_of (nf_table g))).
  - destruct (sslice _ _ _); intros H; inversion H; subst; auto.
  - unfold same_slice in HS. destruct (nf_table f) as [r|], (nf_table g) as [w|]; try tauto.
Qed.

Lemma row_inv h n v mine j f indices p k x h1 h2 : inv h n v mine -> NoDup (tables n) -> nth_error (n_factors n) j = Some f ->
  h_nf_row f indices h = (h1, Ok (p, true)) -> part_set p k x h1 = (h2, Ok tt) ->
  inv h2 n (overwritten v j (row_number (nf_outcomes f) indices + k) x) mine.
Proof.
  intros (Hn & HD & HM) HN Ef E1 E2. rewrite (tables_arrays _ _ _ Hn) in HN. pose proof Hn as (H1 & H2 & H3 & H4 & H5 & H6 & H7 & H8).
  destruct (Forall2_nth _ _ _ _ _ H7 Ef) as (g & Eg & Hfg). destruct (nf_row_inv _ _ _ _ _ _ Hfg E1) as (-> & El & Eh & Eo).
  pose proof Hfg as (F1 & F2 & F3 & F4 & HS). unfold same_slice in HS. destruct (nf_table f) as [r|] eqn:Er.
  2:{ exfalso. cbn [slice_of] in Eo. unfold part_set in E2. destruct (_ || _) eqn:B; [discriminate E2|]. apply orb_false_iff in B. destruct B as [B1 B2].
      unfold h_nf_row, bind, lift, ret in E1. destruct (nf_row_index f indices) as [[i ok]|e|q] eqn:E; [|discriminate E1..]. destruct ok; cbn [negb] in E1; [|discriminate E1].
      rewrite Er in E1. rewrite (part_of_spec h _ []) in E1 by (left; auto). unfold sslice in E1. apply nf_row_index_inv in E. subst i.
      destruct (_ || _ || _) eqn:C; [discriminate E1|]. rewrite !orb_false_iff in C. unfold zlen in C. simpl in C. lia. }
  destruct (nf_table g) as [w|] eqn:Ew; [|tauto]. destruct HS as (a & -> & Ea). cbn [slice_of] in Eo.
  destruct (part_set_spec h p k x h2 a w Eo Ea E2) as (K1 & K2 & ->).
  assert (Ia : In a (table_arrays n)). { apply in_flat_map. exists f. split; [eapply nth_error_In; eauto|]. unfold table_array. rewrite Er. left. reflexivity. }
  assert (La : (a < List.length h)%nat) by (apply nth_error_Some; congruence).
  split; [|split; [exact HD|rewrite upd_nth_length; exact HM]].
  unfold overwritten. rewrite Eg. unfold same_net. cbn [n_name n_info n_vars n_factors n_policies n_ve n_names n_tui]. repeat (split; [assumption|]). split.
  - apply (sset_fresh h j _ _ f a); auto. unfold overwrite. rewrite Ew. cbn [option_map]. unfold same_nfactor. cbn [nf_for nf_given nf_table nf_outcomes nf_columns]. repeat (split; [assumption|]).
    rewrite Er. exists a. split; [reflexivity|]. rewrite upd_nth_same by exact La. rewrite El. reflexivity.
  - assert (NP : ~ In a (policy_arrays n)) by (intros C; exact (HD a C Ia)). clear - H8 NP. unfold policy_arrays in NP.
    induction H8 as [|y z l l' (E & Ei & Ev & b & Eb & Ed) _ IH]; cbn [map] in NP; constructor; [|apply IH; intros H; apply NP; now right].
    repeat split; auto. exists b. split; auto. rewrite upd_nth_other; auto. intros ->. apply NP. left. now rewrite Eb.
Qed.

Lemma call_inv sc rq rq' h n v mine h' m r v' r' : inv h n v mine -> positional sc -> read_request h rq = Some rq' -> (is_training rq = true -> NoDup (tables n)) ->
  h_serve sc n rq h = (h', (m, r)) -> serve sc v rq' = (v', r') -> (forall p, r <> Panic p) ->
  inv h' m v' (match r with Ok x => reply_arrays x | _ => [] end ++ mine).
Proof.
  intros (Hn & HD & HM) Hsc HR HT E1 E2 HP. destruct (is_training rq) eqn:ET.
  - destruct rq; try discriminate ET. cbn [read_request] in HR. injection HR as <-. specialize (HT eq_refl). rewrite (tables_arrays _ _ _ Hn) in HT.
    pose proof (train_ok sc h n v samples Hn HT HD) as HS. rewrite E1, E2 in HS. destruct HS as (-> & HW & HA & HS). specialize (HS HP).
    split; [exact HS|]. split; [exact HD|]. intros a Ha. apply in_app_iff in Ha.
    assert (HX : In a mine). { destruct Ha as [Ha|Ha]; [|exact Ha]. destruct r as [x|e|p]; [|destruct Ha..]. cbn in E1. destruct (h_train n samples h) as [h2 [u|e|p]]; cbn in E1; inversion E1; subst; destruct Ha. }
    rewrite (proj1 HW). now apply HM.
  - pose proof (serve_ok sc h n v rq rq' Hsc Hn HR ET) as HS. rewrite E1, E2 in HS. destruct HS as (Ho & Hm & Hk & HA & HX). cbn [fst snd] in *.
    pose proof (kept_tables _ _ _ Hk) as EK. pose proof (old_length _ _ Ho) as L. split; [exact Hm|]. split.
    + intros a Ha Hb. rewrite EK in Hb. destruct Hk as (_ & _ & Hk). destruct (Hk a Ha) as [H|H]; [now apply (HD a)|]. apply (table_bound _ _ _ _ Hn) in Hb. lia.
    + intros a Ha. apply in_app_iff in Ha. destruct Ha as [Ha|Ha].
      * destruct r as [x|e|p]; [|destruct Ha..]. destruct (proj1 (HX x eq_refl) a Ha) as (B & NP). split; [lia|]. split; [|exact NP].
        rewrite EK. intros H. apply (table_bound _ _ _ _ Hn) in H. lia.
      * destruct (HM a Ha) as (B & NT & NP). split; [lia|]. rewrite EK. split; [exact NT|]. intros H. destruct Hk as (_ & _ & Hk). destruct (Hk a H) as [H'|H']; [now apply NP|lia].
Qed.

Lemma editor_inv h n v mine : editor h n v mine -> inv h n v mine.
Proof.
  induction 1 as [h n v mine HP|h n v mine j f indices p k x h1 h2 _ IH HN Ef E1 E2|sc rq rq' h n v mine h' m r v' r' _ IH Hsc HR HT E1 E2 HP|h n v mine a d _ IH Ha].
  - apply program_inv. exact HP.
  - eapply row_inv; eauto.
  - eapply call_inv; eauto.
  - destruct IH as (Hn & HD & HM). destruct (HM a Ha) as (B & NT & NP). split; [now apply same_net_write|]. split; [exact HD|]. rewrite upd_nth_length. exact HM.
Qed.
End HeapRow.
