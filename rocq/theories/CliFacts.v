(** Facts about boxes, command line evidence and CSV training data. *)
From Coq Require Import ZArith List Bool String Ascii Lia Permutation.
From Verif Require Import Num GoBase GoFacts VarModel VEModel NetModel SpecNet TextModel SpecDoc TextFacts TrainModel SpecTrain TrainFacts CliModel SpecCli.
Import ListNotations.
Open Scope string_scope.
Open Scope list_scope.
Open Scope Z_scope.

(** ** Boxes *)

Lemma extend_edges b o : b_x (b_extend b o) = Z.min (b_x b) (b_x o) /\ b_y (b_extend b o) = Z.min (b_y b) (b_y o) /\
  b_x (b_extend b o) + b_w (b_extend b o) = Z.max (b_x b + b_w b) (b_x o + b_w o) /\
  b_y (b_extend b o) + b_h (b_extend b o) = Z.max (b_y b + b_h b) (b_y o + b_h o).
Proof.
  unfold b_extend. destruct b as [x y w h], o as [x' y' w' h']. cbn [b_x b_y b_w b_h].
  destruct (x' <? x) eqn:E1; destruct (y' <? y) eqn:E2; cbn [b_x b_y b_w b_h];
  repeat (match goal with |- context [if ?a then _ else _] => let E := fresh "E" in destruct a eqn:E; cbn [b_x b_y b_w b_h] end); cbn [b_x b_y b_w b_h] in *; lia.
Qed.

Lemma bounds_eq b c : b_x b = b_x c -> b_y b = b_y c -> b_x b + b_w b = b_x c + b_w c -> b_y b + b_h b = b_y c + b_h c -> b = c.
Proof. destruct b as [x y w h], c as [x2 y2 w2 h2]. cbn [b_x b_y b_w b_h]. intros -> -> H1 H2. f_equal; lia. Qed.

Lemma extend_swap b o p : b_extend (b_extend b o) p = b_extend (b_extend b p) o.
Proof.
  destruct (extend_edges b o) as (A1 & A2 & A3 & A4), (extend_edges b p) as (B1 & B2 & B3 & B4).
  destruct (extend_edges (b_extend b o) p) as (C1 & C2 & C3 & C4), (extend_edges (b_extend b p) o) as (D1 & D2 & D3 & D4).
  apply bounds_eq.
  - rewrite C1, D1, A1, B1. rewrite <- !Z.min_assoc. f_equal. apply Z.min_comm.
  - rewrite C2, D2, A2, B2. rewrite <- !Z.min_assoc. f_equal. apply Z.min_comm.
  - rewrite C3, D3, A3, B3. rewrite <- !Z.max_assoc. f_equal. apply Z.max_comm.
  - rewrite C4, D4, A4, B4. rewrite <- !Z.max_assoc. f_equal. apply Z.max_comm.
Qed.
Lemma extend_comm b o : b_extend b o = b_extend o b.
Proof.
  destruct (extend_edges b o) as (A1 & A2 & A3 & A4), (extend_edges o b) as (B1 & B2 & B3 & B4). apply bounds_eq.
  - rewrite A1, B1. apply Z.min_comm.
  - rewrite A2, B2. apply Z.min_comm.
  - rewrite A3, B3. apply Z.max_comm.
  - rewrite A4, B4. apply Z.max_comm.
Qed.

Lemma extends_perm l l' : Permutation l l' -> forall b, fold_left b_extend l b = fold_left b_extend l' b.
Proof.
  induction 1; intros b; cbn [fold_left]; auto.
  - rewrite extend_swap. auto.
  - congruence.
Qed.
Lemma extends_spans l : forall b, spans (fold_left b_extend l b) b /\ (forall o, In o l -> spans (fold_left b_extend l b) o) /\
  forall c, spans c b -> (forall o, In o l -> spans c o) -> spans c (fold_left b_extend l b).
Proof.
  induction l as [|o l IH]; intros b; cbn [fold_left].
  - split; [unfold spans; lia|]. split; [intros ? []|auto].
  - destruct (IH (b_extend b o)) as (H1 & H2 & H3). pose proof (extend_edges b o) as E. unfold spans in *. split; [lia|]. split.
    + intros p [<-|Hp]; [lia|auto].
    + intros c Hb Ho. apply H3; [specialize (Ho o (or_introl eq_refl)); lia|intros p Hp; apply Ho; right; auto].
Qed.
Lemma contains_iff b x y : b_contains b x y = true <-> b_x b <= x < b_x b + b_w b /\ b_y b <= y < b_y b + b_h b.
Proof. unfold b_contains. rewrite !andb_true_iff, !Z.leb_le, !Z.ltb_lt. lia. Qed.
Lemma covers_spans b c : has_cells c -> (covers b c <-> spans b c).
Proof.
  intros [Hw Hh]. split.
  - intros H. pose proof (H (b_x c) (b_y c)) as H1. pose proof (H (b_x c + b_w c - 1) (b_y c + b_h c - 1)) as H2.
    rewrite !contains_iff in H1, H2. unfold spans. lia.
  - intros H x y. rewrite !contains_iff. unfold spans in H. lia.
Qed.

(** ** Evidence *)

Lemma equals_none s : equals_signs s = 0%nat <-> ~ In "="%char (chars s).
Proof. unfold equals_signs, chars. rewrite count_occ_not_In. reflexivity. Qed.
Lemma equals_cons c s : equals_signs (String c s) = ((if ascii_dec c "=" then 1 else 0) + equals_signs s)%nat.
Proof. unfold equals_signs. cbn [list_ascii_of_string count_occ]. destruct (ascii_dec c "="); auto. Qed.
Lemma equals_app a b : equals_signs (a ++ b) = (equals_signs a + equals_signs b)%nat.
Proof. induction a as [|c a IH]; auto. cbn [String.append]. rewrite !equals_cons, IH. lia. Qed.

Lemma split_one s : equals_signs s = 1%nat <-> exists k v, assigns s k v.
Proof.
  split.
  - induction s as [|c s IH]; [discriminate|]. rewrite equals_cons. destruct (ascii_dec c "=") as [->|Hc]; intros H.
    + exists "", s. split; [reflexivity|]. split; [reflexivity|lia].
    + destruct (IH ltac:(lia)) as (k & v & -> & H1 & H2). exists (String c k), v. split; [reflexivity|]. split; auto.
      rewrite equals_cons. destruct (ascii_dec c "="); [contradiction|auto].
  - intros (k & v & -> & H1 & H2). rewrite !equals_app, H1, H2. reflexivity.
Qed.
Lemma split_assigns s k v : assigns s k v <-> split "=" s = [k; v].
Proof.
  split.
  - intros (-> & H1 & H2). apply equals_none in H1, H2. cbn [String.append]. rewrite split_app, split_none by auto. reflexivity.
  - intros E. destruct (split_parts "=" s) as (_ & Hp & Hc). rewrite E in *. cbn [String.concat] in Hc. split; [rewrite <- Hc; reflexivity|].
    split; apply equals_none; apply Hp; simpl; auto.
Qed.
Lemma assigns_unique s k v k' v' : assigns s k v -> assigns s k' v' -> k' = k /\ v' = v.
Proof. intros H H'. apply split_assigns in H, H'. rewrite H in H'. injection H' as -> ->. auto. Qed.

Definition evidence_step (ev : list (string * string)) (entry : string) : gores (list (string * string)) :=
  match split "=" entry with
  | [k; v] => Ok (sset_map ev k v)
  | _ => Err (EMsg "syntax error in evidence")
  end.
Lemma step_cases ev s : (exists k v, assigns s k v /\ evidence_step ev s = Ok (sset_map ev k v)) \/
  (equals_signs s <> 1%nat /\ exists e, evidence_step ev s = Err e).
Proof.
  destruct (Nat.eq_dec (equals_signs s) 1) as [E|E].
  - left. apply split_one in E. destruct E as (k & v & H). exists k, v. split; auto. unfold evidence_step. apply split_assigns in H. rewrite H. auto.
  - right. split; auto. unfold evidence_step. destruct (split "=" s) as [|k [|v [|]]] eqn:Es; eauto.
    exfalso. apply E. apply split_one. exists k, v. apply split_assigns. auto.
Qed.

Lemma parse_ok l : forall ev0, (forall s, In s l -> equals_signs s = 1%nat) ->
  exists m, foldM evidence_step ev0 l = Ok m /\ (NoDup (map fst ev0) -> NoDup (map fst m)) /\
    forall k v, sget_map m k = Some v <->
      (exists l1 s l2, l = l1 ++ s :: l2 /\ assigns s k v /\ forall s' v', In s' l2 -> ~ assigns s' k v') \/
      (sget_map ev0 k = Some v /\ forall s v', In s l -> ~ assigns s k v').
Proof.
  induction l as [|s l IH]; intros ev0 H.
  - exists ev0. split; auto. split; auto. intros k v. split; [intros E; right; split; auto; intros ? ? []|].
    intros [(l1 & s & l2 & E & _)|[E _]]; auto. destruct l1; discriminate.
  - cbn [foldM]. destruct (step_cases ev0 s) as [(k0 & v0 & Ha & E)|[Hne _]]; [|exfalso; apply Hne, H; left; auto].
    rewrite E. cbn [gbind]. destruct (IH (sset_map ev0 k0 v0)) as (m & Em & Hn & Hm). { intros; apply H; right; auto. }
    exists m. split; auto. split. { intros Hd. apply Hn. apply (mset_NoDup String.eqb String.eqb_eq). auto. }
    intros k v. rewrite Hm. split.
    + intros [(l1 & s1 & l2 & -> & Hs & Hl)|[Hg Hl]].
      * left. exists (s :: l1), s1, l2. auto.
      * destruct (String.eqb_spec k0 k) as [<-|Hk].
        -- rewrite (mget_mset_same String.eqb String.eqb_eq) in Hg. injection Hg as <-. left. exists [], s, l. split; auto.
        -- rewrite (mget_mset_other String.eqb String.eqb_eq) in Hg by auto. right. split; auto. intros s' v' [<-|Hs']; [|apply Hl; auto].
           intros Ha'. destruct (assigns_unique _ _ _ _ _ Ha Ha'). congruence.
    + intros [(l1 & s1 & l2 & E1 & Hs & Hl)|[Hg Hl]].
      * destruct l1 as [|s1' l1]; injection E1 as -> ->.
        -- destruct (assigns_unique _ _ _ _ _ Ha Hs) as [-> ->]. right. split; [apply (mget_mset_same String.eqb String.eqb_eq)|]. auto.
        -- left. exists l1, s1, l2. auto.
      * right. assert (k0 <> k). { intros ->. eapply Hl; [left; reflexivity|apply Ha]. }
        rewrite (mget_mset_other String.eqb String.eqb_eq) by auto. split; auto. intros s' v' Hs'. apply Hl. right. auto.
Qed.
Lemma parse_bad l : forall ev0 s, In s l -> equals_signs s <> 1%nat -> exists e, foldM evidence_step ev0 l = Err e.
Proof.
  induction l as [|s0 l IH]; intros ev0 s Hin Hs; [destruct Hin|]; cbn [foldM]; destruct Hin as [<-|Hin].
  - destruct (step_cases ev0 s0) as [(k & v & Ha & E)|[_ (e & E)]]; rewrite E; cbn [gbind]; eauto. exfalso. apply Hs, split_one. eauto.
  - destruct (step_cases ev0 s0) as [(k & v & Ha & E)|[_ (e & E)]]; rewrite E; cbn [gbind]; eauto.
Qed.

(** ** CSV files *)

Lemma field_index header : forall record x, List.length record = List.length header ->
  match field header record x with
  | Some s => In x header /\ exists i, str_index header x = Z.of_nat i /\ nth_error record i = Some s
  | None => ~ In x header /\ str_index header x < 0
  end.
Proof.
  unfold str_index, index_func. intros record x Hl.
  assert (G : forall hs rs i0, List.length rs = List.length hs -> 
    match field hs rs x with
    | Some s => In x hs /\ exists i, index_func_from (String.eqb x) hs i0 = i0 + Z.of_nat i /\ nth_error rs i = Some s
    | None => ~ In x hs /\ index_func_from (String.eqb x) hs i0 = -1
    end).
  { induction hs as [|h hs IH]; intros [|r rs] i0 H; try discriminate; [simpl; auto|]. cbn [field index_func_from]. rewrite (String.eqb_sym x h).
    destruct (String.eqb_spec h x) as [->|Hne].
    - split; [left; auto|]. exists 0%nat. split; [lia|reflexivity].
    - specialize (IH rs (i0 + 1) ltac:(simpl in H; lia)). destruct (field hs rs x).
      + destruct IH as (H1 & i & E & Hn). split; [right; auto|]. exists (S i). split; [lia|auto].
      + destruct IH as (H1 & E). split; [simpl; tauto|auto]. }
  specialize (G header record 0 Hl). destruct (field header record x).
  - destruct G as (H & i & E & Hn). split; auto. exists i. split; [lia|auto].
  - destruct G as (H & E). split; auto. lia.
Qed.
Lemma field_in header record x : List.length record = List.length header -> In x header -> exists s, field header record x = Some s.
Proof. intros Hl Hin. pose proof (field_index header record x Hl) as H. destruct (field header record x); eauto. tauto. Qed.

Lemma str_index_neg header x : str_index header x < 0 <-> ~ In x header.
Proof.
  unfold str_index. rewrite index_func_neg. split.
  - intros H Hin. specialize (H x Hin). rewrite String.eqb_refl in H. discriminate.
  - intros H y Hy. apply String.eqb_neq. intros <-. auto.
Qed.

Lemma last_cons (outs : list string) s : In s outs -> exists i, nth_error outs i = Some s /\ forall j, (i < j)%nat -> nth_error outs j <> Some s.
Proof.
  induction outs as [|o outs IH]; [intros []|]. intros H. destruct (in_dec string_dec s outs) as [Hin|Hno].
  - destruct (IH Hin) as (i & E & Hj). exists (S i). split; auto. intros [|j] Hlt; [lia|]. simpl. apply Hj. lia.
  - destruct H as [->|H]; [|contradiction]. exists 0%nat. split; auto. intros [|j] Hlt; [lia|]. simpl. intros E. apply Hno. eapply nth_error_In; eauto.
Qed.

Lemma outcome_map_ok outs noData : ~ In noData outs -> exists m, outcome_map outs noData = Ok m /\
  forall s k, sget_map m s = Some k <-> reads_as outs noData s k.
Proof.
  intros Hno. unfold outcome_map.
  set (step := fun (m : list (string * Z)) '((j, o) : Z * string) => if String.eqb o noData then Err (EMsg "no-data value appears as outcome") else Ok (sset_map m o j)).
  assert (G : forall l i0 m0, ~ In noData l -> exists m, foldM step m0 (combine (map (fun k => i0 + Z.of_nat k) (seq 0 (List.length l))) l) = Ok m /\
    forall s k, sget_map m s = Some k <-> (exists i, k = i0 + Z.of_nat i /\ nth_error l i = Some s /\ forall j, (i < j)%nat -> nth_error l j <> Some s) \/ (sget_map m0 s = Some k /\ ~ In s l)).
  { induction l as [|o l IH]; intros i0 m0 Hn.
    - exists m0. split; auto. intros s k. split; [intros E; right; split; auto|]. intros [(i & _ & E & _)|[E _]]; auto. destruct i; discriminate.
    - cbn [List.length seq map combine foldM step]. destruct (String.eqb_spec o noData) as [->|Hne]; [exfalso; apply Hn; left; auto|]. cbn [gbind].
      replace (i0 + Z.of_nat 0) with i0 by lia.
      destruct (IH (i0 + 1) (sset_map m0 o i0)) as (m & Em & Hm). { intros H; apply Hn; right; auto. }
      exists m. split. { rewrite <- Em. do 2 f_equal. rewrite <- seq_shift, map_map. apply map_ext. intros; lia. }
      intros s k. rewrite Hm. split.
      + intros [(i & -> & E & Hj)|[E Hs]].
        * left. exists (S i). split; [lia|]. split; auto. intros [|j] Hlt; [lia|]. simpl. apply Hj. lia.
        * destruct (String.eqb_spec o s) as [<-|Hos].
          -- rewrite (mget_mset_same String.eqb String.eqb_eq) in E. injection E as <-. left. exists 0%nat. split; [lia|]. split; auto.
             intros [|j] Hlt; [lia|]. simpl. intros E. apply Hs. eapply nth_error_In; eauto.
          -- rewrite (mget_mset_other String.eqb String.eqb_eq) in E by auto. right. split; auto. intros [H|H]; auto.
      + intros [(i & -> & E & Hj)|[E Hs]].
        * destruct i as [|i].
          -- injection E as ->. right. rewrite (mget_mset_same String.eqb String.eqb_eq). split; [f_equal; lia|]. intros Hin. apply In_nth_error in Hin. destruct Hin as (j & Ej). apply (Hj (S j)); [lia|auto].
          -- left. exists i. split; [lia|]. split; auto. intros j Hlt. apply (Hj (S j)). lia.
        * right. simpl in Hs. rewrite (mget_mset_other String.eqb String.eqb_eq) by tauto. split; auto. }
  unfold zrange. replace (Z.to_nat (zlen outs - 0)) with (List.length outs) by (unfold zlen; lia).
  destruct (G outs 0 [] Hno) as (m & Em & Hm). fold step. rewrite Em. cbn [gbind]. exists (sset_map m noData (-1)). split; auto.
  intros s k. unfold reads_as. destruct (String.eqb_spec noData s) as [<-|Hs].
  - rewrite (mget_mset_same String.eqb String.eqb_eq). split; [intros E; injection E as <-; left; auto|]. intros [[_ ->]|[H _]]; auto. tauto.
  - rewrite (mget_mset_other String.eqb String.eqb_eq) by auto. rewrite Hm. split.
    + intros [(i & -> & E & Hj)|[E _]]; [|discriminate]. right. split; [congruence|]. exists i. split; [lia|auto].
    + intros [[E _]|(_ & i & -> & E & Hj)]; [congruence|]. left. exists i. split; [lia|auto].
Qed.
Lemma outcome_map_bad outs noData : In noData outs -> exists e, outcome_map outs noData = Err e.
Proof.
  intros Hin. unfold outcome_map.
  set (step := fun (m : list (string * Z)) '((j, o) : Z * string) => if String.eqb o noData then Err (EMsg "no-data value appears as outcome") else Ok (sset_map m o j)).
  assert (G : forall l (z : list Z) m0, List.length z = List.length l -> In noData l -> exists e, foldM step m0 (combine z l) = Err e).
  { induction l as [|o l IH]; intros [|j z] m0 Hl H; try discriminate; [destruct H|]. cbn [combine foldM step]. destruct (String.eqb_spec o noData) as [->|Hne]; cbn [gbind]; eauto.
    destruct H as [->|H]; [tauto|]. apply IH; auto. }
  destruct (G outs (zrange 0 (zlen outs)) []) as (e & E); auto. { rewrite zrange_length. unfold zlen. lia. }
  fold step. rewrite E. cbn [gbind]. eauto.
Qed.
Lemma reads_exists outs noData s : s = noData \/ In s outs -> exists k, reads_as outs noData s k.
Proof.
  intros H. destruct (string_dec s noData) as [->|Hne]; [exists (-1); left; auto|]. destruct H as [H|H]; [contradiction|].
  destruct (last_cons outs s H) as (i & E & Hj). exists (Z.of_nat i). right. split; auto. exists i. auto.
Qed.
Lemma reads_range outs noData s k : reads_as outs noData s k -> k < zlen outs.
Proof.
  unfold zlen. intros [[_ ->]|(_ & i & -> & E & _)]; [lia|]. assert (i < List.length outs)%nat by (apply nth_error_Some; congruence). lia.
Qed.
Lemma reads_cases outs noData s k : reads_as outs noData s k -> s = noData \/ In s outs.
Proof. intros [[-> _]|(_ & i & _ & E & _)]; auto. right. eapply nth_error_In; eauto. Qed.
Lemma reads_unique outs noData s k k' : reads_as outs noData s k -> reads_as outs noData s k' -> k = k'.
Proof.
  intros [[-> ->]|(H & i & -> & E & Hj)] [[H' ->]|(H' & i' & -> & E' & Hj')]; try tauto; try congruence.
  destruct (Nat.lt_trichotomy i i') as [Hlt|[->|Hlt]]; auto; exfalso; [apply (Hj i')|apply (Hj' i)]; auto.
Qed.
