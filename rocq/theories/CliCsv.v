(** Training from CSV files. *)
From Coq Require Import ZArith List Bool String Ascii Lia Permutation.
From Verif Require Import Num GoBase GoFacts VarModel VEModel NetModel SpecNet TrainModel SpecTrain TrainFacts CliModel SpecCli CliFacts.
Import ListNotations.
Open Scope string_scope.
Open Scope list_scope.
Open Scope Z_scope.

Section Csv.
Context {A : Type} {N : NumOps A}.
Variable parse_float : string -> option A.

Definition column_for (header : list string) (noData : string) (node : nvar) : gores column :=
  let idx := str_index header (nv_name node) in
  if idx <? 0 then Err (EMsg "no column in training data file")
  else
    let! m := outcome_map (nv_outcomes node) noData in
    Ok (mkColumn idx (nodeType_eqb (nv_type node) Utility) m).
(** What is read for a variable from a record. *)
Definition read_node (header : list string) (noData : string) (record : list string) (v : nvar) : gores (Z * A) :=
  match field header record (nv_name v) with
  | None => Err (EMsg "")
  | Some s =>
    if nodeType_eqb (nv_type v) Utility then
      match parse_float s with None => Err (EMsg "unable to parse utility value") | Some u => Ok (0, u) end
    else match outcome_map (nv_outcomes v) noData with
         | Ok m => match sget_map m s with None => Err (EMsg "outcome not available in node") | Some k => Ok (k, n0) end
         | _ => Err (EMsg "")
         end
  end.

Lemma prepared header noData nodes : forall cs, mapM (column_for header noData) nodes = Ok cs ->
  forall record, List.length record = List.length header ->
  mapM (read_cell parse_float record) cs = mapM (read_node header noData record) nodes.
Proof.
  induction nodes as [|v nodes IH]; intros cs E record Hl; cbn [mapM] in E.
  - injection E as <-. reflexivity.
  - destruct (column_for header noData v) as [c| |] eqn:Ec; cbn [gbind] in E; try discriminate.
    destruct (mapM (column_for header noData) nodes) as [cs'| |] eqn:Ecs; cbn [gbind] in E; try discriminate. injection E as <-.
    cbn [mapM]. rewrite (IH cs' eq_refl record Hl).
    assert (Er : read_cell parse_float record c = read_node header noData record v).
    { unfold column_for in Ec. destruct (str_index header (nv_name v) <? 0) eqn:Ei; [discriminate|].
      destruct (outcome_map (nv_outcomes v) noData) as [m| |] eqn:Em; cbn [gbind] in Ec; try discriminate. injection Ec as <-.
      unfold read_cell, read_node. cbn [c_index c_utility c_outcomes]. rewrite Em. pose proof (field_index header record (nv_name v) Hl) as Hf.
      destruct (field header record (nv_name v)) as [s|]; [|destruct Hf; lia]. destruct Hf as (_ & i & -> & En). rewrite (sget_ok _ _ _ En). cbn [gbind]. reflexivity. }
    rewrite Er. reflexivity.
Qed.

Lemma column_err header noData v e : column_for header noData v = Err e -> ~ In (nv_name v) header \/ In noData (nv_outcomes v).
Proof.
  unfold column_for. destruct (str_index header (nv_name v) <? 0) eqn:Ei; [left; apply str_index_neg; lia|].
  destruct (in_dec string_dec noData (nv_outcomes v)) as [Hin|Hno]; [right; auto|]. destruct (outcome_map_ok _ _ Hno) as (m & Em & _). rewrite Em. discriminate.
Qed.
Lemma column_bad header noData v : ~ In (nv_name v) header \/ In noData (nv_outcomes v) -> exists e, column_for header noData v = Err e.
Proof.
  unfold column_for. intros H. destruct (str_index header (nv_name v) <? 0) eqn:Ei; eauto.
  destruct H as [H|H]. { apply str_index_neg in H. lia. } destruct (outcome_map_bad _ _ H) as (e & E). rewrite E. cbn [gbind]. eauto.
Qed.
Lemma column_ok header noData v : In (nv_name v) header -> ~ In noData (nv_outcomes v) -> exists c, column_for header noData v = Ok c.
Proof.
  intros H Hno. unfold column_for. destruct (str_index header (nv_name v) <? 0) eqn:Ei. { exfalso. apply (str_index_neg header (nv_name v)); [lia|auto]. }
  destruct (outcome_map_ok _ _ Hno) as (m & Em & _). rewrite Em. cbn [gbind]. eauto.
Qed.
Lemma mapM_err {X Y} (f : X -> gores Y) l x : (forall y, In y l -> is_panic (f y) = false) -> In x l -> is_ok (f x) = false -> exists e, mapM f l = Err e.
Proof.
  induction l as [|y l IH]; intros Hp Hin Hx; [destruct Hin|]. cbn [mapM]. destruct (f y) as [b|e|p] eqn:E; cbn [gbind].
  - destruct Hin as [->|Hin]; [rewrite E in Hx; discriminate|]. destruct IH as (e & ->); auto. { intros z Hz. apply Hp. right. auto. } cbn [gbind]. eauto.
  - eauto.
  - specialize (Hp y (or_introl eq_refl)). rewrite E in Hp. discriminate.
Qed.
Lemma mapM_total {X Y} (f : X -> gores Y) l : (forall y, In y l -> exists b, f y = Ok b) -> exists r, mapM f l = Ok r /\ Forall2 (fun x b => f x = Ok b) l r.
Proof.
  induction l as [|y l IH]; intros H; cbn [mapM]; [exists []; auto|]. destruct (H y (or_introl eq_refl)) as (b & Eb). rewrite Eb. cbn [gbind].
  destruct IH as (r & Er & Hr). { intros; apply H; right; auto. } rewrite Er. cbn [gbind]. exists (b :: r). auto.
Qed.
Lemma column_nopanic header noData v : is_panic (column_for header noData v) = false.
Proof.
  destruct (in_dec string_dec (nv_name v) header) as [H|H].
  - destruct (in_dec string_dec noData (nv_outcomes v)) as [H2|H2].
    + destruct (column_bad header noData v) as (e & ->); auto.
    + destruct (column_ok header noData v H H2) as (c & ->). auto.
  - destruct (column_bad header noData v) as (e & ->); auto.
Qed.
Lemma read_nopanic header noData record v : is_panic (read_node header noData record v) = false.
Proof. unfold read_node. destruct (field _ _ _); auto. destruct (nodeType_eqb _ _); [destruct (parse_float _); auto|]. destruct (outcome_map _ _); auto. destruct (mget _ _ _); auto. Qed.

(** The order of the columns. *)
Lemma csv_columns net noData header1 records1 header2 records2 : same_data (n_vars net) header1 records1 header2 records2 ->
  train_csv parse_float net (header1 :: records1) noData = train_csv parse_float net (header2 :: records2) noData.
Proof.
  intros [Hc Hr]. unfold train_csv.
  change (prepare (n_vars net) header1 noData) with (mapM (column_for header1 noData) (n_vars net)).
  change (prepare (n_vars net) header2 noData) with (mapM (column_for header2 noData) (n_vars net)).
  assert (HC : (exists cs1 cs2, mapM (column_for header1 noData) (n_vars net) = Ok cs1 /\ mapM (column_for header2 noData) (n_vars net) = Ok cs2) \/
    exists e, mapM (column_for header1 noData) (n_vars net) = Err e /\ mapM (column_for header2 noData) (n_vars net) = Err e).
  { clear Hr. induction (n_vars net) as [|v l IH]; [left; exists [], []; auto|]. cbn [mapM].
    assert (Hv : (exists c1 c2, column_for header1 noData v = Ok c1 /\ column_for header2 noData v = Ok c2) \/ exists e, column_for header1 noData v = Err e /\ column_for header2 noData v = Err e).
    { unfold column_for. pose proof (Hc v (or_introl eq_refl)) as Hv. pose proof (str_index_neg header1 (nv_name v)). pose proof (str_index_neg header2 (nv_name v)).
      destruct (str_index header1 (nv_name v) <? 0) eqn:E1.
      - assert (E2 : str_index header2 (nv_name v) <? 0 = true). { apply Z.ltb_lt. apply H0. rewrite <- Hv. apply H. lia. } rewrite E2. right. eauto.
      - assert (E2 : str_index header2 (nv_name v) <? 0 = false). { apply Z.ltb_ge. apply Z.nlt_ge. rewrite H0, <- Hv, <- H. lia. } rewrite E2.
        destruct (outcome_map (nv_outcomes v) noData) eqn:Em; cbn [gbind]; [left; eauto|right; eauto|].
        exfalso. destruct (in_dec string_dec noData (nv_outcomes v)) as [Hn|Hn]; [destruct (outcome_map_bad _ _ Hn) as (e & Ee)|destruct (outcome_map_ok _ _ Hn) as (m & Ee & _)]; congruence. }
    destruct Hv as [(c1 & c2 & E1 & E2)|(e & E1 & E2)]; rewrite E1, E2; cbn [gbind]; [|right; eauto].
    destruct IH as [(cs1 & cs2 & E3 & E4)|(e & E3 & E4)]. { intros w Hw. apply Hc. right. auto. } { rewrite E3, E4. left. cbn [gbind]. eauto. } { rewrite E3, E4. right. cbn [gbind]. eauto. } }
  destruct HC as [(cs1 & cs2 & E1 & E2)|(e & E1 & E2)]; rewrite E1, E2; cbn [gbind]; auto.
  destruct (new_trainer net) as [t| |]; cbn [gbind]; auto.
  assert (G : foldM (train_record parse_float net header1 cs1) t records1 = foldM (train_record parse_float net header2 cs2) t records2).
  { clear Hc. revert t. induction Hr as [|r1 r2 l1 l2 (L1 & L2 & Hf) Hr IH]; intros t; auto. cbn [foldM].
    assert (Er : train_record parse_float net header1 cs1 t r1 = train_record parse_float net header2 cs2 t r2).
    { unfold train_record. replace (zlen r1 =? zlen header1) with true by (unfold zlen; lia). replace (zlen r2 =? zlen header2) with true by (unfold zlen; lia). cbn [negb].
      rewrite (prepared header1 noData (n_vars net) cs1 E1 r1 L1), (prepared header2 noData (n_vars net) cs2 E2 r2 L2).
      replace (mapM (read_node header2 noData r2) (n_vars net)) with (mapM (read_node header1 noData r1) (n_vars net)); auto.
      assert (Hm : forall l, incl l (n_vars net) -> mapM (read_node header1 noData r1) l = mapM (read_node header2 noData r2) l).
      { induction l as [|v l IHl]; intros Hl; auto. cbn [mapM]. rewrite IHl by (intros x Hx; apply Hl; right; auto). unfold read_node at 1 3. rewrite (Hf v) by (apply Hl; left; auto). auto. }
      apply Hm. intros x; auto. }
    rewrite Er. destruct (train_record parse_float net header2 cs2 t r2); cbn [gbind]; auto. }
  rewrite G. auto.
Qed.

(** ** Readable files *)
Section Readable.
Variable net : network A.
Hypothesis Hta : trainable net.
Notation vars := (n_vars net).
Variables (noData : string) (header : list string).

Lemma position_nth i v : nth_error vars i = Some v -> position vars (nv_name v) = i.
Proof. apply (position_at net Hta). Qed.

(** The sample read from a record. *)
Lemma cells_sample record cells : List.length record = List.length header -> (forall v, In v vars -> ~ In noData (nv_outcomes v)) ->
  mapM (read_node header noData record) vars = Ok cells ->
  sample_of parse_float vars noData header record (map fst cells, Some (map snd cells)).
Proof.
  intros Hl Hm E.
  assert (HF : Forall2 (fun v c => read_node header noData record v = Ok c) vars cells).
  { revert E. clear. generalize vars. intros l. revert cells. induction l as [|v l IH]; intros cells E; cbn [mapM] in E; [injection E as <-; constructor|].
    destruct (read_node header noData record v) eqn:Ev; cbn [gbind] in E; try discriminate. destruct (mapM (read_node header noData record) l) eqn:El; cbn [gbind] in E; try discriminate. injection E as <-. constructor; auto. }
  assert (Hlen : List.length cells = List.length vars) by (symmetry; clear -HF; induction HF; simpl; auto).
  assert (Hcell : forall v, In v vars -> exists c, read_node header noData record v = Ok c /\ observed vars (map fst cells, Some (map snd cells)) (nv_name v) = fst c /\
            reported vars (map fst cells, Some (map snd cells)) (nv_name v) = snd c).
  { intros v Hv. apply In_nth_error in Hv. destruct Hv as (i & Ei). assert (Hn : exists c, nth_error cells i = Some c /\ read_node header noData record v = Ok c).
    { clear -HF Ei. revert i Ei. induction HF as [|a b l l' Hab HF IH]; intros [|i] Ei; try discriminate; simpl in *; [injection Ei as ->; eauto|eauto]. }
    destruct Hn as (c & Ec & Er). exists c. split; auto. unfold observed, reported. rewrite (position_nth i v Ei). cbn [fst snd slice_of].
    split; apply nth_error_nth; rewrite nth_error_map, Ec; reflexivity. }
  constructor.
  - constructor.
    + cbn [fst]. rewrite map_length. auto.
    + intros v Hv. destruct (Hcell v Hv) as (c & Ec & -> & _). pose proof (ta_outcomes net Hta v Hv) as Ho. unfold read_node in Ec.
      destruct (field header record (nv_name v)) as [s|]; [|discriminate]. destruct (nodeType_eqb (nv_type v) Utility).
      * destruct (parse_float s); [|discriminate]. injection Ec as <-. cbn [fst]. unfold zlen. destruct (nv_outcomes v); [tauto|simpl; lia].
      * destruct (outcome_map_ok _ _ (Hm v Hv)) as (m & Em & Hmap). rewrite Em in Ec. destruct (mget String.eqb m s) as [k|] eqn:Ek; [|discriminate]. injection Ec as <-. cbn [fst].
        apply Hmap in Ek. eapply reads_range; eauto.
    + cbn [snd]. rewrite map_length. auto.
  - intros v s Hv Ht Hs. destruct (Hcell v Hv) as (c & Ec & -> & _). unfold read_node in Ec. rewrite Hs in Ec.
    replace (nodeType_eqb (nv_type v) Utility) with false in Ec by (destruct (nv_type v); auto; tauto).
    destruct (outcome_map_ok _ _ (Hm v Hv)) as (m & Em & Hmap). rewrite Em in Ec. destruct (mget String.eqb m s) as [k|] eqn:Ek; [|discriminate]. injection Ec as <-. apply Hmap. auto.
  - intros v s Hv Ht Hs. destruct (Hcell v Hv) as (c & Ec & _ & ->). unfold read_node in Ec. rewrite Hs, Ht in Ec. cbn [nodeType_eqb] in Ec.
    destruct (parse_float s); [|discriminate]. injection Ec as <-. auto.
Qed.

Lemma read_ok record v : List.length record = List.length header -> In v vars -> In (nv_name v) header -> ~ In noData (nv_outcomes v) ->
  (forall s, nv_type v <> Utility -> field header record (nv_name v) = Some s -> s = noData \/ In s (nv_outcomes v)) ->
  (forall s, nv_type v = Utility -> field header record (nv_name v) = Some s -> parse_float s <> None) ->
  exists c, read_node header noData record v = Ok c.
Proof.
  intros Hl Hv Hc Hm Ho Hu. destruct (field_in header record _ Hl Hc) as (s & Es). unfold read_node. rewrite Es.
  destruct (nodeType_eqb (nv_type v) Utility) eqn:Et.
  - assert (Ht : nv_type v = Utility) by (destruct (nv_type v); auto; discriminate). specialize (Hu s Ht Es). destruct (parse_float s); [eauto|tauto].
  - assert (Ht : nv_type v <> Utility) by (intros E; rewrite E in Et; discriminate). specialize (Ho s Ht Es).
    destruct (outcome_map_ok _ _ Hm) as (m & Em & Hmap). rewrite Em. destruct (reads_exists _ _ _ Ho) as (k & Hk). apply Hmap in Hk. rewrite Hk. eauto.
Qed.

Theorem csv_readable records : readable parse_float vars noData header records ->
  exists samples, Forall2 (sample_of parse_float vars noData header) records samples /\
    train_csv parse_float net (header :: records) noData = train net samples.
Proof.
  intros [Hcols Hmark Hlen Hout Hutil]. unfold train_csv.
  change (prepare vars header noData) with (mapM (column_for header noData) vars).
  destruct (mapM_total (column_for header noData) vars) as (cs & Ecs & _). { intros v Hv. apply column_ok; auto. }
  rewrite Ecs. cbn [gbind]. unfold train. destruct (new_trainer_ok net Hta) as (t0 & Et0 & Hct). rewrite Et0. cbn [gbind].
  assert (G : exists samples, Forall2 (sample_of parse_float vars noData header) records samples /\ forall t,
    foldM (train_record parse_float net header cs) t records = foldM (fun t '((s, u) : list Z * option (list A)) => add_sample net t s u) t samples).
  { clear Hct Et0. induction records as [|r l IH]; [exists []; split; auto|].
    destruct IH as (samples & HF & Ef). { intros; apply Hlen; right; auto. } { intros r' v s H; apply (Hout r'); right; auto. } { intros r' v s H; apply (Hutil r'); right; auto. }
    assert (Hl : List.length r = List.length header) by (apply Hlen; left; auto).
    destruct (mapM_total (read_node header noData r) vars) as (cells & Ecells & _).
    { intros v Hv. apply read_ok; auto. - intros s Ht Hs. apply (Hout r v s); auto. left; auto. - intros s Ht Hs. apply (Hutil r v s); auto. left; auto. }
    exists ((map fst cells, Some (map snd cells)) :: samples). split.
    - constructor; auto. apply cells_sample; auto.
    - intros t. cbn [foldM]. unfold train_record at 1. replace (zlen r =? zlen header) with true by (unfold zlen; lia). cbn [negb].
      rewrite (prepared header noData vars cs Ecs r Hl), Ecells. cbn [gbind]. destruct (add_sample net t (map fst cells) (Some (map snd cells))); cbn [gbind]; auto. }
  destruct G as (samples & HF & Ef). exists samples. split; auto. rewrite Ef. auto.
Qed.

(** ** Files with errors *)
Theorem csv_unreadable records : unreadable parse_float vars noData header records ->
  exists e, train_csv parse_float net (header :: records) noData = (net, Err e).
Proof.
  intros Hbad. unfold train_csv. change (prepare vars header noData) with (mapM (column_for header noData) vars).
  destruct (mapM (column_for header noData) vars) as [cs|e|p] eqn:Ecs; cbn [gbind]; eauto.
  2:{ exfalso. clear -Ecs parse_float N. revert Ecs. generalize vars. intros l. induction l as [|v l IH]; cbn [mapM]; [discriminate|]. pose proof (column_nopanic header noData v). destruct (column_for header noData v); cbn [gbind]; try discriminate.
      destruct (mapM (column_for header noData) l); cbn [gbind]; try discriminate. auto. }
  assert (Hmark : forall v, In v vars -> In (nv_name v) header /\ ~ In noData (nv_outcomes v)).
  { intros v Hv. destruct (in_dec string_dec (nv_name v) header) as [H1|H1].
    - split; auto. intros H2. destruct (column_bad header noData v) as (e & E); auto. destruct (mapM_err (column_for header noData) vars v) as (e' & E'); auto. { intros; apply column_nopanic. } { rewrite E. auto. } congruence.
    - exfalso. destruct (column_bad header noData v) as (e & E); auto. destruct (mapM_err (column_for header noData) vars v) as (e' & E'); auto. { intros; apply column_nopanic. } { rewrite E. auto. } congruence. }
  destruct (new_trainer_ok net Hta) as (t0 & Et0 & Hct). rewrite Et0. cbn [gbind].
  assert (Hrec : exists r, In r records /\ (List.length r <> List.length header \/ (List.length r = List.length header /\ exists v, In v vars /\ is_ok (read_node header noData r v) = false))).
  { destruct Hbad as [v Hv Hno|v Hv Hno|r Hr Hno|r v s Hr Hv Ht Hs H1 H2|r v s Hr Hv Ht Hs H1].
    - exfalso. apply Hno. apply Hmark. auto.
    - exfalso. apply (Hmark v Hv). auto.
    - exists r. auto.
    - exists r. split; auto. destruct (Nat.eq_dec (List.length r) (List.length header)) as [Hl|Hl]; auto. right. split; auto. exists v. split; auto. unfold read_node. rewrite Hs.
      replace (nodeType_eqb (nv_type v) Utility) with false by (destruct (nv_type v); auto; tauto). destruct (outcome_map_ok _ _ (proj2 (Hmark v Hv))) as (m & Em & Hmap). rewrite Em.
      destruct (mget String.eqb m s) eqn:Ek; auto. apply Hmap in Ek. apply reads_cases in Ek. tauto.
    - exists r. split; auto. destruct (Nat.eq_dec (List.length r) (List.length header)) as [Hl|Hl]; auto. right. split; auto. exists v. split; auto. unfold read_node. rewrite Hs, Ht. cbn [nodeType_eqb]. rewrite H1. auto. }
  assert (G : forall l h t, counted net h t -> (exists r, In r l /\ (List.length r <> List.length header \/ (List.length r = List.length header /\ exists v, In v vars /\ is_ok (read_node header noData r v) = false))) ->
    exists e, foldM (train_record parse_float net header cs) t l = Err e).
  { clear Hrec Hct Et0. induction l as [|r l IH]; intros h t Hct (r0 & Hin & Hr0); [destruct Hin|]. cbn [foldM].
    destruct (Nat.eq_dec (List.length r) (List.length header)) as [Hl|Hl].
    - unfold train_record at 1. replace (zlen r =? zlen header) with true by (unfold zlen; lia). cbn [negb].
      rewrite (prepared header noData vars cs Ecs r Hl). destruct (mapM (read_node header noData r) vars) as [cells|e|p] eqn:Em; cbn [gbind]; eauto.
      + pose proof (cells_sample r cells Hl (fun v Hv => proj2 (Hmark v Hv)) Em) as Hs. destruct (add_sample_ok net Hta _ (so_valid _ _ _ _ _ _ Hs) h t Hct) as (t' & Et' & Hct').
        cbn [fst snd] in Et'. rewrite Et'. cbn [gbind]. apply (IH _ t' Hct'). exists r0. split; auto. destruct Hin as [<-|Hin]; auto. exfalso.
        destruct Hr0 as [H|(_ & v & Hv & Hb)]; [tauto|]. destruct (mapM_err (read_node header noData r) vars v) as (e & E); auto. { intros; apply read_nopanic. } congruence.
      + exfalso. clear -Em parse_float N. revert Em. generalize vars. intros l. induction l as [|v l IH]; cbn [mapM]; [discriminate|]. pose proof (read_nopanic header noData r v). destruct (read_node header noData r v); cbn [gbind]; try discriminate.
        destruct (mapM (read_node header noData r) l); cbn [gbind]; try discriminate. auto.
    - unfold train_record at 1. replace (zlen r =? zlen header) with false by (unfold zlen; lia). cbn [negb gbind]. eauto. }
  destruct (G records _ t0 Hct Hrec) as (e & ->). eauto.
Qed.
End Readable.
End Csv.
