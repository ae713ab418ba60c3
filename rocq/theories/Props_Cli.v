(** Properties C54-C57 and C63: boxes, evidence on the command line and training from CSV files
    (internal/tui). Specification vocabulary: SpecCli.v, SpecTrain.v. *)
From Coq Require Import ZArith QArith Qcanon List Bool String Ascii Lia Permutation.
From Verif Require Import Num GoBase GoFacts VarModel VEModel SpecFactor XnumFacts NetModel SpecNet NetNew TextModel TrainModel SpecTrain TrainFacts CliModel SpecCli CliFacts CliCsv
  Props_VE Props_Net Props_Train.
Import ListNotations.
Open Scope string_scope.
Open Scope list_scope.
Open Scope Z_scope.

(** ** C54: Extend gives the smallest enclosing box *)

(** For boxes with cells: the extended box has the cells of both, and every box that has them has all
    cells of the extended box. *)
Theorem C54_least_box : forall b o, has_cells b -> has_cells o ->
  covers (b_extend b o) b /\ covers (b_extend b o) o /\ has_cells (b_extend b o) /\
  forall c, covers c b -> covers c o -> covers c (b_extend b o).
Proof.
  intros b o Hb Ho. destruct (extends_spans [o] b) as (H1 & H2 & H3). cbn [fold_left] in *. specialize (H2 o (or_introl eq_refl)).
  assert (Hc : has_cells (b_extend b o)) by (unfold has_cells, spans in *; lia).
  split; [apply covers_spans; auto|]. split; [apply covers_spans; auto|]. split; auto.
  intros c C1 C2. apply covers_spans in C1, C2; auto. apply covers_spans; auto. apply H3; auto. intros p [<-|[]]. auto.
Qed.

(** For all boxes, also those without cells, and any number of extensions: the result spans the start
    and all boxes added, and it is the least box that does. *)
Theorem C54_least_span : forall l b,
  spans (fold_left b_extend l b) b /\ (forall o, In o l -> spans (fold_left b_extend l b) o) /\
  (forall c, spans c b -> (forall o, In o l -> spans c o) -> spans c (fold_left b_extend l b)).
Proof. exact extends_spans. Qed.

(** The order of extensions does not matter, nor which box is extended. *)
Theorem C54_order : forall b l l', Permutation l l' -> fold_left b_extend l b = fold_left b_extend l' b.
Proof. intros b l l' H. apply extends_perm. auto. Qed.
Theorem C54_commutes : forall b o, b_extend b o = b_extend o b.
Proof. exact extend_comm. Qed.

(** The centre of a box with cells is one of them. *)
Theorem C54_centroid : forall b, has_cells b -> b_contains b (fst (b_centroid b)) (snd (b_centroid b)) = true.
Proof.
  intros b [Hw Hh]. apply contains_iff. unfold b_centroid. cbn [fst snd].
  assert (forall w, 0 < w -> 0 <= Z.quot w 2 < w) as Q. { intros w H. split; [apply Z.quot_pos; lia|apply Z.quot_lt; lia]. }
  pose proof (Q _ Hw). pose proof (Q _ Hh). lia.
Qed.

Example C54_example : has_cells (mkBounds 2 3 4 5) /\ has_cells (mkBounds (-1) 5 2 9) /\
  b_extend (mkBounds 2 3 4 5) (mkBounds (-1) 5 2 9) = mkBounds (-1) 3 7 11 /\
  fold_left b_extend [mkBounds 5 5 1 1; mkBounds 0 0 0 20; mkBounds 9 1 2 2] (mkBounds 0 0 1 1) =
  fold_left b_extend [mkBounds 9 1 2 2; mkBounds 5 5 1 1; mkBounds 0 0 0 20] (mkBounds 0 0 1 1) /\
  fold_left b_extend [mkBounds 5 5 1 1; mkBounds 0 0 0 20; mkBounds 9 1 2 2] (mkBounds 0 0 1 1) = mkBounds 0 0 11 20.
Proof. unfold has_cells. simpl. repeat split; lia. Qed.
Print Assumptions C54_least_box.
Print Assumptions C54_least_span.
Print Assumptions C54_order.

(** ** C55: evidence on the command line *)

Theorem C55_error : forall l, (exists e, parse_evidence l = Err e) <-> exists s, In s l /\ equals_signs s <> 1%nat.
Proof.
  intros l. split.
  - intros (e & E). destruct (Exists_dec (fun s => equals_signs s <> 1%nat) l) as [H|H].
    + intros s. destruct (Nat.eq_dec (equals_signs s) 1); [right; tauto|left; auto].
    + apply Exists_exists in H. auto.
    + exfalso. destruct (parse_ok l []) as (m & Em & _). { intros s Hs. destruct (Nat.eq_dec (equals_signs s) 1) as [|Hn]; auto. exfalso. apply H. apply Exists_exists. eauto. }
      unfold parse_evidence in E. change (foldM evidence_step [] l = Err e) in E. congruence.
  - intros (s & Hin & Hs). apply (parse_bad l [] s Hin Hs).
Qed.

(** Otherwise each key has the value of its last entry. *)
Theorem C55_last_wins : forall l, (forall s, In s l -> equals_signs s = 1%nat) ->
  exists m, parse_evidence l = Ok m /\ NoDup (map fst m) /\
    forall key value, sget_map m key = Some value <->
      exists l1 s l2, l = l1 ++ s :: l2 /\ assigns s key value /\ forall s' value', In s' l2 -> ~ assigns s' key value'.
Proof.
  intros l H. destruct (parse_ok l [] H) as (m & Em & Hn & Hm). exists m. split; auto. split; [apply Hn; constructor|].
  intros k v. rewrite Hm. split; [|auto]. intros [|[E _]]; [auto|discriminate].
Qed.
(** An entry with one "=" is split in one way. *)
Theorem C55_entries : forall s, equals_signs s = 1%nat <-> exists key value, assigns s key value /\ forall k v, assigns s k v -> k = key /\ v = value.
Proof.
  intros s. split.
  - intros H. apply split_one in H. destruct H as (k & v & H). exists k, v. split; auto. intros k' v' H'. eapply assigns_unique; eauto.
  - intros (k & v & H & _). apply split_one. eauto.
Qed.
Example C55_example : parse_evidence ["rain=yes"; "grass=wet"; "rain=no"] = Ok [("rain", "no"); ("grass", "wet")] /\
  equals_signs "rain=yes" = 1%nat /\ is_err (parse_evidence ["rain=yes"; "a=b=c"]) = true /\ is_err (parse_evidence [""]) = true.
Proof. repeat split. Qed.
Print Assumptions C55_error.
Print Assumptions C55_last_wins.

(** ** C56: columns and missing values in CSV files *)

(** The order of the columns, and other columns, make no difference. *)
Theorem C56_column_order : forall {A} {N : NumOps A} parse_float (net : network A) noData header1 records1 header2 records2,
  same_data (n_vars net) header1 records1 header2 records2 ->
  train_csv parse_float net (header1 :: records1) noData = train_csv parse_float net (header2 :: records2) noData.
Proof. intros A N. exact csv_columns. Qed.

(** A readable file is the same as its samples, where the marker counts as missing. *)
Theorem C56_samples : forall {A} {N : NumOps A} parse_float (net : network A) noData header records, trainable net ->
  readable parse_float (n_vars net) noData header records ->
  exists samples, Forall2 (sample_of parse_float (n_vars net) noData header) records samples /\
    train_csv parse_float net (header :: records) noData = train net samples.
Proof. intros A N pf net noData header records Hta. apply csv_readable. auto. Qed.

(** In other files there is an error, and the network is not changed. *)
Theorem C56_errors : forall {A} {N : NumOps A} parse_float (net : network A) noData header records, trainable net ->
  unreadable parse_float (n_vars net) noData header records ->
  exists e, train_csv parse_float net (header :: records) noData = (net, Err e).
Proof. intros A N pf net noData header records Hta. apply csv_unreadable. auto. Qed.

(** Every file is either readable or not. *)
Theorem C56_cases : forall {A} (parse_float : string -> option A) vars noData header records,
  readable parse_float vars noData header records \/ unreadable parse_float vars noData header records.
Proof.
  intros A pf vars noData header records.
  set (bad := fun (r : list string) v => match field header r (nv_name v) with
    | None => false
    | Some s => if nodeType_eqb (nv_type v) Utility then match pf s with None => true | Some _ => false end
                else negb (String.eqb s noData) && negb (if in_dec string_dec s (nv_outcomes v) then true else false) end).
  destruct (forallb (fun v => (if in_dec string_dec (nv_name v) header then true else false) && negb (if in_dec string_dec noData (nv_outcomes v) then true else false)) vars) eqn:E1.
  - destruct (forallb (fun r => (List.length r =? List.length header)%nat && forallb (fun v => negb (bad r v)) vars) records) eqn:E2.
    + left. rewrite forallb_forall in E1, E2. constructor.
      * intros v Hv. specialize (E1 v Hv). destruct (in_dec string_dec (nv_name v) header); auto. discriminate.
      * intros v Hv. specialize (E1 v Hv). destruct (in_dec string_dec noData (nv_outcomes v)); auto. rewrite andb_false_r in E1. discriminate.
      * intros r Hr. specialize (E2 r Hr). apply andb_true_iff in E2. apply Nat.eqb_eq. tauto.
      * intros r v s Hr Hv Ht Hs. specialize (E2 r Hr). apply andb_true_iff in E2. destruct E2 as [_ E2]. rewrite forallb_forall in E2. specialize (E2 v Hv). unfold bad in E2. rewrite Hs in E2.
        replace (nodeType_eqb (nv_type v) Utility) with false in E2 by (destruct (nv_type v); auto; tauto).
        destruct (String.eqb_spec s noData); auto. destruct (in_dec string_dec s (nv_outcomes v)); auto. discriminate.
      * intros r v s Hr Hv Ht Hs. specialize (E2 r Hr). apply andb_true_iff in E2. destruct E2 as [_ E2]. rewrite forallb_forall in E2. specialize (E2 v Hv). unfold bad in E2. rewrite Hs, Ht in E2.
        cbn [nodeType_eqb] in E2. destruct (pf s); [discriminate|]. discriminate.
    + right. apply not_true_iff_false in E2. rewrite forallb_forall in E2.
      assert (Hx : exists r, In r records /\ ((List.length r =? List.length header)%nat && forallb (fun v => negb (bad r v)) vars) = false).
      { clear E1. induction records as [|r l IH]; [exfalso; apply E2; intros ? []|]. destruct ((List.length r =? List.length header)%nat && forallb (fun v => negb (bad r v)) vars) eqn:E.
        - destruct IH as (r' & H1 & H2). { intros H. apply E2. intros x [<-|Hx]; auto. } exists r'. split; [right|]; auto.
        - exists r. split; [left|]; auto. }
      destruct Hx as (r & Hr & Hb). destruct (Nat.eqb_spec (List.length r) (List.length header)) as [Hl|Hl]; [|eapply bad_length; eauto]. cbn [andb] in Hb.
      assert (Hy : exists v, In v vars /\ bad r v = true).
      { clear E1 E2. induction vars as [|v l IH]; [discriminate|]. cbn [forallb] in Hb. destruct (bad r v) eqn:E; [exists v; split; [left|]; auto|]. cbn [negb andb] in Hb. destruct (IH Hb) as (w & H1 & H2). exists w. split; [right|]; auto. }
      destruct Hy as (v & Hv & Hbad). unfold bad in Hbad. destruct (field header r (nv_name v)) as [s|] eqn:Es; [|discriminate].
      destruct (nodeType_eqb (nv_type v) Utility) eqn:Et.
      * destruct (pf s) eqn:Ep; [discriminate|]. eapply bad_utility; eauto. destruct (nv_type v); auto; discriminate.
      * apply andb_true_iff in Hbad. destruct Hbad as [H1 H2]. eapply unknown_outcome; eauto. { intros E. rewrite E in Et. discriminate. }
        { intros ->. rewrite String.eqb_refl in H1. discriminate. } destruct (in_dec string_dec s (nv_outcomes v)); [discriminate|auto].
  - right. apply not_true_iff_false in E1. rewrite forallb_forall in E1.
    assert (Hx : exists v, In v vars /\ (~ In (nv_name v) header \/ In noData (nv_outcomes v))).
    { induction vars as [|v l IH]; [exfalso; apply E1; intros ? []|].
      destruct (in_dec string_dec (nv_name v) header) as [H1|H1]; [|exists v; split; [left|]; auto]. destruct (in_dec string_dec noData (nv_outcomes v)) as [H2|H2]; [exists v; split; [left|]; auto|].
      destruct IH as (w & H3 & H4). { intros H. apply E1. intros x [<-|Hx]; auto. destruct (in_dec string_dec (nv_name v) header); [|tauto]. destruct (in_dec string_dec noData (nv_outcomes v)); [tauto|]. auto. }
      exists w. split; [right|]; auto. }
    destruct Hx as (v & Hv & [H|H]); [eapply no_column|eapply marker_is_outcome]; eauto.
Qed.

(** Probabilities trained from a file are the relative frequencies of its records: those with the outcome
    among those with the outcomes of the parents and a known outcome. *)
Lemma filter_pairs {X Y} (R : X -> Y -> Prop) (p : X -> bool) (q : Y -> bool) l l' : Forall2 R l l' -> (forall x y, R x y -> p x = q y) ->
  List.length (filter p l) = List.length (filter q l').
Proof. intros H Hpq. induction H as [|x y l l' Hxy H IH]; auto. simpl. rewrite (Hpq x y Hxy). destruct (q y); simpl; auto. Qed.

Lemma shows_record {A} {N : NumOps A} parse_float (net : network A) noData header record smp names s :
  trainable net -> readable parse_float (n_vars net) noData header [record] -> (forall v, In v (n_vars net) -> NoDup (nv_outcomes v)) ->
  sample_of parse_float (n_vars net) noData header record smp -> state_of (n_vars net) s ->
  (forall x, In x names -> exists v, In v (n_vars net) /\ nv_name v = x /\ nv_type v <> Utility) ->
  record_shows (n_vars net) header names s record = shows (n_vars net) names s smp.
Proof.
  intros Hta Hrd Hnd Hso Hs Hnames. unfold record_shows, shows.
  induction names as [|x names IH]; auto. cbn [forallb]. rewrite IH by (intros y Hy; apply Hnames; right; auto). f_equal.
  destruct (Hnames x (or_introl eq_refl)) as (v & Hv & <- & Ht).
  destruct (field_in header record (nv_name v)) as (o & Eo). { apply (rd_length _ _ _ _ _ Hrd). left; auto. } { apply (rd_columns _ _ _ _ _ Hrd). auto. }
  rewrite Eo, (var_named_in' _ _ (ta_names net Hta) Hv). specialize (Hs v Hv). apply nth_error_Some in Hs. destruct (nth_error (nv_outcomes v) (s (nv_name v))) as [o'|] eqn:Eo'; [|tauto].
  destruct (so_outcomes _ _ _ _ _ _ Hso v o Hv Ht Eo) as [[-> ->]|(Hne & i & -> & Ei & _)].
  - destruct (String.eqb_spec noData o') as [->|]; [|lia]. exfalso. apply (rd_marker _ _ _ _ _ Hrd v Hv). eapply nth_error_In; eauto.
  - destruct (String.eqb_spec o o') as [<-|Ho].
    + assert (i = s (nv_name v)). { apply (proj1 (NoDup_nth_error _) (Hnd v Hv)); [apply nth_error_Some; congruence|congruence]. } lia.
    + symmetry. apply Z.eqb_neq. intros E. apply Nat2Z.inj in E. congruence.
Qed.

Theorem C56_frequencies : forall parse_float net noData header records n', trainable net -> plain_parents net ->
  (forall v, In v (n_vars net) -> NoDup (nv_outcomes v)) -> readable parse_float (n_vars net) noData header records ->
  train_csv parse_float net (header :: records) noData = (n', Ok tt) ->
  forall v f, In v (n_vars net) -> nv_type v = Chance -> own_factor net v f ->
  (forall g, In g (nf_given f) -> exists p, In p (n_vars net) /\ nv_name p = g /\ nv_type p <> Utility) ->
  exists f', own_factor n' v f' /\ forall s, state_of (n_vars net) s ->
    nth_error (slice_of (nf_table f')) (cell (n_vars net) (nf_given f ++ [nv_name v]) s) =
    Some (Fin (qz (count_of (record_shows (n_vars net) header (nf_given f ++ [nv_name v]) s) records) /
               qz (count_of (fun r => record_shows (n_vars net) header (nf_given f) s r && record_knows noData header (nv_name v) r) records))).
Proof.
  intros pf net noData header records n' Hta Hp Hnd Hrd E v f Hv Ht Ho Hg.
  destruct (csv_readable pf net Hta noData header records Hrd) as (samples & HF & Et). rewrite Et in E.
  assert (Hval : forall smp, In smp samples -> valid_sample (n_vars net) smp).
  { intros smp Hs. clear -HF Hs. induction HF as [|r sm l l' H HF IH]; [destruct Hs|]. destruct Hs as [<-|Hs]; auto. apply (so_valid _ _ _ _ _ _ H). }
  destruct (C41_frequencies net samples n' Hta Hp Hval E v f Hv Ht Ho) as (f' & Ho' & _ & Hent). exists f'. split; auto. intros s Hs.
  destruct (Hent s Hs) as (_ & ->). do 3 f_equal; f_equal; unfold usable_count, count_of, zlen; f_equal; symmetry.
  - assert (HR : Forall2 (fun r smp => readable pf (n_vars net) noData header [r] /\ sample_of pf (n_vars net) noData header r smp) records samples).
    { clear -HF Hrd. induction HF as [|r sm l l' H HF IH]; constructor.
      - split; auto. destruct Hrd as [A1 A2 A3 A4 A5]. constructor; auto; [intros ? [<-|[]]; apply A3; left; auto|intros ? ? ? [<-|[]]; apply A4; left; auto|intros ? ? ? [<-|[]]; apply A5; left; auto].
      - apply IH. destruct Hrd as [A1 A2 A3 A4 A5]. constructor; auto; [intros ? ?; apply A3; right; auto|intros ? ? ? ?; apply A4; right; auto|intros ? ? ? ?; apply A5; right; auto]. }
    eapply filter_pairs; [apply HR|]. intros r smp [Hr Hsm]. eapply shows_record; eauto.
    intros x Hx. apply in_app_or in Hx. destruct Hx as [Hx|[<-|[]]]; auto. exists v. rewrite Ht. split; auto. split; auto. discriminate.
  - assert (HR : Forall2 (fun r smp => readable pf (n_vars net) noData header [r] /\ sample_of pf (n_vars net) noData header r smp) records samples).
    { clear -HF Hrd. induction HF as [|r sm l l' H HF IH]; constructor.
      - split; auto. destruct Hrd as [A1 A2 A3 A4 A5]. constructor; auto; [intros ? [<-|[]]; apply A3; left; auto|intros ? ? ? [<-|[]]; apply A4; left; auto|intros ? ? ? [<-|[]]; apply A5; left; auto].
      - apply IH. destruct Hrd as [A1 A2 A3 A4 A5]. constructor; auto; [intros ? ?; apply A3; right; auto|intros ? ? ? ?; apply A4; right; auto|intros ? ? ? ?; apply A5; right; auto]. }
    eapply filter_pairs; [apply HR|]. intros r smp [Hr Hsm]. unfold usable. f_equal; [eapply shows_record; eauto|]. rewrite Ht. cbn [nodeType_eqb]. unfold record_knows.
    destruct (field_in header r (nv_name v)) as (o & Eo). { apply (rd_length _ _ _ _ _ Hr). left; auto. } { apply (rd_columns _ _ _ _ _ Hr). auto. }
    rewrite Eo. destruct (so_outcomes _ _ _ _ _ _ Hsm v o Hv ltac:(rewrite Ht; discriminate) Eo) as [[-> ->]|(Hne & i & -> & _)].
    + rewrite String.eqb_refl. reflexivity.
    + destruct (String.eqb_spec o noData); [contradiction|]. cbn [negb]. symmetry. apply Z.leb_le. lia.
Qed.

(** An example with the network of Props_Train; "n/a" is the marker. *)
Definition read_number (s : string) : option xnum :=
  if String.eqb s "" then None else if String.eqb s "NaN" then Some NaN
  else match digits s 0 with Some z => Some (Fin (Q2Qc (inject_Z z))) | None => None end.
Definition trip_header := ["mood"; "id"; "trip"; "forecast"; "weather"].
Definition trip_records := [["10"; "1"; "go"; "good"; "sunny"]; ["4"; "2"; "stay"; "mixed"; "sunny"]; ["6"; "3"; "go"; "bad"; "rainy"];
  ["5"; "4"; "go"; "mixed"; "n/a"]; ["1"; "5"; "stay"; "mixed"; "rainy"]; ["12"; "6"; "go"; "n/a"; "sunny"]; ["3"; "7"; "n/a"; "bad"; "rainy"]].
Definition trip_header2 := ["weather"; "forecast"; "trip"; "mood"].
Definition trip_records2 := map (fun r => [nth 4 r ""; nth 3 r ""; nth 2 r ""; nth 0 r ""]) trip_records.

Definition readable_b (vars : list nvar) (noData : string) (header : list string) (records : list (list string)) : bool :=
  forallb (fun v => existsb (String.eqb (nv_name v)) header && negb (existsb (String.eqb noData) (nv_outcomes v))) vars &&
  forallb (fun r => (List.length r =? List.length header)%nat && forallb (fun v => match field header r (nv_name v) with
    | None => true
    | Some s => if nodeType_eqb (nv_type v) Utility then match read_number s with None => false | Some _ => true end
                else String.eqb s noData || existsb (String.eqb s) (nv_outcomes v) end) vars) records.
Lemma existsb_eqb s l : existsb (String.eqb s) l = true <-> In s l.
Proof. rewrite existsb_exists. split; [intros (x & H & E); apply String.eqb_eq in E; subst; auto|intros H; exists s; rewrite String.eqb_refl; auto]. Qed.
Lemma readable_b_sound vars noData header records : readable_b vars noData header records = true -> readable read_number vars noData header records.
Proof.
  unfold readable_b. rewrite andb_true_iff, !forallb_forall. intros [H1 H2].
  assert (K : forall r, In r records -> List.length r = List.length header /\ forall v s, In v vars -> field header r (nv_name v) = Some s ->
    (if nodeType_eqb (nv_type v) Utility then match read_number s with None => false | Some _ => true end else String.eqb s noData || existsb (String.eqb s) (nv_outcomes v)) = true).
  { intros r Hr. specialize (H2 r Hr). apply andb_true_iff in H2. destruct H2 as [H2 H3]. split; [apply Nat.eqb_eq; auto|]. rewrite forallb_forall in H3. intros v s Hv Hs. specialize (H3 v Hv). rewrite Hs in H3. auto. }
  constructor.
  - intros v Hv. specialize (H1 v Hv). apply andb_true_iff in H1. apply existsb_eqb. tauto.
  - intros v Hv Hin. specialize (H1 v Hv). apply andb_true_iff in H1. apply existsb_eqb in Hin. rewrite Hin in H1. destruct H1; discriminate.
  - intros r Hr. apply (K r Hr).
  - intros r v s Hr Hv Ht Hs. pose proof (proj2 (K r Hr) v s Hv Hs) as H. replace (nodeType_eqb (nv_type v) Utility) with false in H by (destruct (nv_type v); auto; tauto).
    apply orb_true_iff in H. destruct H as [H|H]; [left; apply String.eqb_eq; auto|right; apply existsb_eqb; auto].
  - intros r v s Hr Hv Ht Hs. pose proof (proj2 (K r Hr) v s Hv Hs) as H. rewrite Ht in H. cbn [nodeType_eqb] in H. destruct (read_number s); discriminate.
Qed.

Lemma trip_mood v : In v (n_vars trip) -> nodeType_eqb (nv_type v) Utility = String.eqb (nv_name v) "mood".
Proof.
  intros Hv. assert (H : forallb (fun v => Bool.eqb (nodeType_eqb (nv_type v) Utility) (String.eqb (nv_name v) "mood")) (n_vars trip) = true) by (vm_compute; reflexivity).
  rewrite forallb_forall in H. apply eqb_prop. auto.
Qed.
Lemma trip_names v : In v (n_vars trip) -> In (nv_name v) ["weather"; "forecast"; "trip"; "mood"].
Proof.
  intros Hv. assert (H : forallb (fun v => existsb (String.eqb (nv_name v)) ["weather"; "forecast"; "trip"; "mood"]) (n_vars trip) = true) by (vm_compute; reflexivity).
  rewrite forallb_forall in H. apply existsb_eqb. auto.
Qed.

Example C56_example : readable read_number (n_vars trip) "n/a" trip_header trip_records /\
  same_data (n_vars trip) trip_header trip_records trip_header2 trip_records2 /\
  snd (train_csv read_number trip (trip_header :: trip_records) "n/a") = Ok tt /\
  shown_table (train_csv read_number trip (trip_header :: trip_records) "n/a") 0 = Some [SFin (1#2); SFin (1#2)] /\
  shown_table (train_csv read_number trip (trip_header :: trip_records) "n/a") 1 = Some [SFin (1#2); SFin (1#2); SFin 0; SFin 0; SFin (1#3); SFin (2#3)] /\
  unreadable read_number (n_vars trip) "n/a" trip_header2 trip_records /\
  unreadable read_number (n_vars trip) "" trip_header trip_records /\
  is_err (snd (train_csv read_number trip (trip_header :: trip_records) "")) = true.
Proof.
  split. { apply readable_b_sound. vm_compute. reflexivity. }
  split. { split.
    - intros v Hv. apply trip_names in Hv. destruct Hv as [<-|[<-|[<-|[<-|[]]]]]; simpl; tauto.
    - repeat constructor; intros v Hv; apply trip_names in Hv; destruct Hv as [<-|[<-|[<-|[<-|[]]]]]; reflexivity. }
  split; [vm_compute; reflexivity|]. split; [vm_compute; reflexivity|]. split; [vm_compute; reflexivity|].
  split. { eapply bad_length; [left; reflexivity|simpl; discriminate]. }
  split. { eapply (unknown_outcome _ _ _ _ _ ["5"; "4"; "go"; "mixed"; "n/a"] (nth 0 (n_vars trip) (node Chance "" [])) "n/a").
    - simpl. tauto. - apply nth_In. vm_compute. lia. - vm_compute. discriminate. - reflexivity. - discriminate. - vm_compute. intros [H|[H|[]]]; discriminate. }
  vm_compute. reflexivity.
Qed.
Print Assumptions C56_column_order.
Print Assumptions C56_samples.
Print Assumptions C56_errors.
Print Assumptions C56_frequencies.

(** ** C57: missing utilities *)

(** The property would let a record without utility be added to a file. It is false: the marker is
    parsed as a number. *)
Theorem C57_missing_utility_refuted : ~ (forall parse_float (net : network xnum) noData header records r n', trainable net ->
  readable parse_float (n_vars net) noData header records -> train_csv parse_float net (header :: records) noData = (n', Ok tt) ->
  readable_missing parse_float (n_vars net) noData header (records ++ [r]) ->
  exists n2, train_csv parse_float net (header :: records ++ [r]) noData = (n2, Ok tt)).
Proof.
  intros H. destruct (train_csv read_number trip (trip_header :: trip_records) "n/a") as [n' x] eqn:E.
  assert (Ex : x = Ok tt). { change x with (snd (n', x)). rewrite <- E. vm_compute. reflexivity. } subst x.
  assert (Hrd : readable read_number (n_vars trip) "n/a" trip_header trip_records) by (apply readable_b_sound; vm_compute; reflexivity).
  destruct (H read_number trip "n/a" trip_header trip_records ["n/a"; "8"; "go"; "good"; "sunny"] n' (proj1 trip_trainable) Hrd E) as (n2 & E2).
  - assert (Hr : readable read_number (n_vars trip) "n/a" trip_header [["0"; "8"; "go"; "good"; "sunny"]]) by (apply readable_b_sound; vm_compute; reflexivity).
    constructor.
    + exact (rd_columns _ _ _ _ _ Hrd).
    + exact (rd_marker _ _ _ _ _ Hrd).
    + intros r Hin. apply in_app_or in Hin. destruct Hin as [Hin|[<-|[]]]; [apply (rd_length _ _ _ _ _ Hrd); auto|reflexivity].
    + intros r v s Hin Hv Ht Hs. apply in_app_or in Hin. destruct Hin as [Hin|[<-|[]]]; [eapply (rd_outcomes _ _ _ _ _ Hrd); eauto|].
      apply (rd_outcomes _ _ _ _ _ Hr ["0"; "8"; "go"; "good"; "sunny"] v s); auto; [left; auto|].
      assert (Hn : nv_name v <> "mood"). { intros En. apply Ht. pose proof (trip_mood v Hv) as T. rewrite En in T. destruct (nv_type v); auto; discriminate. }
      rewrite <- Hs. unfold trip_header. cbn [field]. destruct (String.eqb_spec "mood" (nv_name v)); [congruence|reflexivity].
    + intros r v s Hin Hv Ht Hs. apply in_app_or in Hin. destruct Hin as [Hin|[<-|[]]]; [right; eapply (rd_utilities _ _ _ _ _ Hrd); eauto|].
      left. assert (Hn : nv_name v = "mood"). { pose proof (trip_mood v Hv) as T. rewrite Ht in T. apply String.eqb_eq. auto. }
      rewrite Hn in Hs. injection Hs as <-. reflexivity.
  - assert (Eb : is_ok (snd (train_csv read_number trip (trip_header :: trip_records ++ [["n/a"; "8"; "go"; "good"; "sunny"]]) "n/a")) = false) by (vm_compute; reflexivity).
    rewrite E2 in Eb. discriminate.
Qed.

(** What happens instead, for all networks and files: an error, unless the marker itself can be parsed. *)
Theorem C57_marker_is_error : forall {A} {N : NumOps A} parse_float (net : network A) noData header records r v, trainable net ->
  In r records -> In v (n_vars net) -> nv_type v = Utility -> field header r (nv_name v) = Some noData -> parse_float noData = None ->
  exists e, train_csv parse_float net (header :: records) noData = (net, Err e).
Proof. intros A N pf net noData header records r v Hta Hr Hv Ht Hf Hn. apply csv_unreadable; auto. eapply bad_utility; eauto. Qed.

(** If the marker is parsed as not-a-number, like "NaN", missing utilities are skipped as described. *)
Theorem C57_nan_marker_partial : forall {A} {N : NumOps A} parse_float (net : network A) noData header records x, trainable net ->
  parse_float noData = Some x -> nisnan x = true -> readable_missing parse_float (n_vars net) noData header records ->
  exists samples, train_csv parse_float net (header :: records) noData = train net samples /\
    Forall2 (fun r smp => sample_of parse_float (n_vars net) noData header r smp /\
      forall v given s, In v (n_vars net) -> nv_type v = Utility -> field header r (nv_name v) = Some noData ->
        nisnan (reported (n_vars net) smp (nv_name v)) = true /\ usable (n_vars net) v given s smp = false) records samples.
Proof.
  intros A N pf net noData header records x Hta Hx Hnan [R1 R2 R3 R4 R5].
  destruct (csv_readable pf net Hta noData header records) as (samples & HF & E).
  { constructor; auto. intros r v s Hr Hv Ht Hs. destruct (R5 r v s Hr Hv Ht Hs) as [->|]; auto. congruence. }
  exists samples. split; auto. refine (Forall2_imp _ _ _ _ _ HF). intros r smp Hs. split; auto. intros v given s Hv Ht Hf.
  pose proof (so_utilities _ _ _ _ _ _ Hs v noData Hv Ht Hf) as Hp. assert (reported (n_vars net) smp (nv_name v) = x) as -> by congruence. split; auto.
  unfold usable. rewrite Ht. cbn [nodeType_eqb]. assert (reported (n_vars net) smp (nv_name v) = x) as -> by congruence. rewrite Hnan. apply andb_false_r.
Qed.
Example C57_example : read_number "NaN" = Some NaN /\ nisnan (NaN : xnum) = true /\ read_number "n/a" = None /\
  snd (train_csv read_number trip (trip_header :: trip_records ++ [["NaN"; "8"; "go"; "good"; "sunny"]]) "n/a") = Ok tt.
Proof. split; [vm_compute; reflexivity|]. split; [reflexivity|]. split; [vm_compute; reflexivity|]. vm_compute. reflexivity. Qed.
Print Assumptions C57_missing_utility_refuted.
Print Assumptions C57_marker_is_error.
Print Assumptions C57_nan_marker_partial.

(** ** C63: the no-data option of the terminal application *)

(** The property is false: New does not keep the marker. *)
Theorem C63_marker_used_refuted : ~ (forall parse_float lines (net : network xnum) file evidence trainingFile noData delimiter l,
  trainingFile <> "" -> lines trainingFile delimiter = Some l ->
  app_train parse_float lines (app_options file evidence trainingFile noData delimiter) net = train_csv parse_float net l noData).
Proof.
  intros H. specialize (H read_number (fun _ _ => Some (trip_header :: trip_records)) trip "trip.yml" [] "trip.csv" "n/a" 44 _ ltac:(discriminate) eq_refl).
  assert (E1 : is_ok (snd (train_csv read_number trip (trip_header :: trip_records) "n/a")) = true) by (vm_compute; reflexivity).
  assert (E2 : is_ok (snd (app_train read_number (fun _ _ => Some (trip_header :: trip_records)) (app_options "trip.yml" [] "trip.csv" "n/a" 44) trip)) = false) by (vm_compute; reflexivity).
  rewrite <- H, E2 in E1. discriminate E1.
Qed.

(** The marker has no effect at all; training always uses the empty string. *)
Theorem C63_marker_ignored : forall {A} {N : NumOps A} parse_float lines (net : network A) file evidence trainingFile noData delimiter l,
  trainingFile <> "" -> lines trainingFile delimiter = Some l ->
  app_train parse_float lines (app_options file evidence trainingFile noData delimiter) net = train_csv parse_float net l "".
Proof. intros A N pf lines net file ev tf noData d l Ht Hl. unfold app_train, app_options. cbn [op_training op_delimiter op_no_data]. destruct (String.eqb_spec tf ""); [contradiction|]. rewrite Hl. auto. Qed.
Theorem C63_empty_marker_partial : forall {A} {N : NumOps A} parse_float lines (net : network A) file evidence trainingFile delimiter l,
  trainingFile <> "" -> lines trainingFile delimiter = Some l ->
  app_train parse_float lines (app_options file evidence trainingFile "" delimiter) net = train_csv parse_float net l "".
Proof. intros. apply C63_marker_ignored; auto. Qed.
Example C63_example : is_err (snd (app_train read_number (fun _ _ => Some (trip_header :: trip_records)) (app_options "trip.yml" [] "trip.csv" "n/a" 44) trip)) = true /\
  snd (train_csv read_number trip (trip_header :: trip_records) "n/a") = Ok tt.
Proof. split; vm_compute; reflexivity. Qed.
Print Assumptions C63_marker_used_refuted.
Print Assumptions C63_marker_ignored.
