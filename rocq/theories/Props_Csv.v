(** Property C127: the text of CSV files (internal/tui/training.go: TrainNetwork; cmd/bbn/train.go; cmd/bbni/main.go).
    The vocabulary is in SpecCsv.v and SpecUtf8.v. *)
From Coq Require Import ZArith List Bool String Ascii Lia.
From Verif Require Import Num GoBase SpecFactor VEModel NetModel LogicModel TextModel DocModel CliModel TuiModel SpecShell ShellModel SpecUtf8 CsvModel SpecCsv CsvThms Props_Train Props_Cli Props_Shell.
Import ListNotations.
Open Scope string_scope.
Open Scope list_scope.
Open Scope Z_scope.

(** ** C127: it does not matter how a CSV file is written *)

(** The reader finds the fields that are written in a file: with or without quotes, with any
    separator, with both kinds of line ends, with blank lines, with or without an end of the last line,
    and also if the file ends with CR. *)
Theorem C127_read : forall r rs text, separator r -> file_text r rs text -> csv_read r text = Ok rs.
Proof. exact csv_read_text. Qed.
(** So a file can be understood in one way only. *)
Theorem C127_unambiguous : forall r rs rs' text, separator r -> file_text r rs text -> file_text r rs' text -> rs = rs'.
Proof. intros r rs rs' text Hr H H'. apply (csv_read_text r rs text Hr) in H. apply (csv_read_text r rs' text Hr) in H'. congruence. Qed.

(** All tables of texts can be written, except those with CR LF in a field. *)
Definition in_quotes_text (f : string) : list Z := [quote_byte] ++ doubled (bytes_of f) ++ [quote_byte].
Fixpoint quoted_record (r : Z) (fs : list string) : list Z :=
  match fs with [] => [] | [f] => in_quotes_text f | f :: fs' => in_quotes_text f ++ encode r ++ quoted_record r fs' end.
Definition quoted_file (r : Z) (e : list Z) (rs : list (list string)) : list Z := flat_map (fun fs => quoted_record r fs ++ e) rs.
Lemma quoted_record_ok r fs : fs <> [] -> (forall f, In f fs -> ~ occurs [13; 10] (bytes_of f)) -> record_text r fs (quoted_record r fs) /\ quoted_record r fs <> [].
Proof.
  induction fs as [|f fs IH]; intros Hne H; [congruence|]. destruct fs as [|g fs].
  - split; [|discriminate]. apply one_field. apply in_quotes. apply H. left. auto.
  - split; [|discriminate]. change (quoted_record r (f :: g :: fs)) with (in_quotes_text f ++ encode r ++ quoted_record r (g :: fs)). apply more_fields; [apply in_quotes; apply H; left; auto|]. apply IH; [discriminate|]. intros x Hx. apply H. right. auto.
Qed.
Theorem C127_writable : forall r rs e, line_end e -> (forall fs, In fs rs -> fs <> [] /\ forall f, In f fs -> ~ occurs [13; 10] (bytes_of f)) ->
  file_text r rs (quoted_file r e rs).
Proof.
  intros r rs e He. induction rs as [|fs rs IH]; intros H; [apply no_lines|]. unfold quoted_file. cbn [flat_map]. rewrite <- app_assoc. destruct (H fs (or_introl eq_refl)) as [H1 H2]. destruct (quoted_record_ok r fs H1 H2) as [H3 H4].
  apply next_record; auto. apply IH. intros x Hx. apply H. right. auto.
Qed.

(** Other delimiters are errors. So is a file with an odd number of quotes. *)
Theorem C127_delimiters : forall r text, ~ separator r -> exists e, csv_read r text = Err e.
Proof. intros r text H. unfold csv_read. destruct (valid_delim r) eqn:E; [exfalso; apply H, separator_valid; auto|eauto]. Qed.
Theorem C127_quotes : forall r text rs, csv_read r text = Ok rs -> Nat.even (List.length (filter (fun b => b =? quote_byte) text)) = true.
Proof.
  intros r text rs H. apply read_quotes in H. unfold quotes in H. rewrite (filter_ext _ (Z.eqb 34)); auto. intros b. apply Z.eqb_sym.
Qed.

(** Two files with the same fields, perhaps with different separators: bbn train prints the same
    network, or fails for both, and bbni starts alike. *)
Section Commands.
Variable parse_float : string -> option xnum.
Variable D : Type.
Variable read_file : string -> option D.
Variable yaml_of : D -> option (ydoc xnum).
Variable xml_of : D -> option xdoc.
Variable files : string -> option (list Z).
Notation train_command := (train_command parse_float D read_file yaml_of xml_of (csv_file files)).
Notation bbni_command := (bbni_command parse_float D read_file yaml_of xml_of (csv_file files)).
Lemma csv_file_text file r rs text : files file = Some text -> separator r -> file_text r rs text -> csv_file files file r = Some rs.
Proof. intros E Hr H. unfold csv_file. rewrite E, (csv_read_text r rs text Hr H). reflexivity. Qed.
Theorem C127_train : forall netFile noData rs file delim r text file' delim' r' text',
  single_rune delim r -> separator r -> files file = Some text -> file_text r rs text ->
  single_rune delim' r' -> separator r' -> files file' = Some text' -> file_text r' rs text' ->
  train_command netFile file delim noData = train_command netFile file' delim' noData.
Proof.
  intros netFile noData rs file delim r text file' delim' r' text' H1 H2 H3 H4 H1' H2' H3' H4'. unfold single_rune in *. unfold ShellModel.train_command.
  rewrite H1, H1', (csv_file_text file r rs text H3 H2 H4), (csv_file_text file' r' rs text' H3' H2' H4'). reflexivity.
Qed.
Theorem C127_bbni : forall scs scp path texts noData rs file delim r text file' delim' r' text', file <> "" -> file' <> "" ->
  single_rune delim r -> separator r -> files file = Some text -> file_text r rs text ->
  single_rune delim' r' -> separator r' -> files file' = Some text' -> file_text r' rs text' ->
  bbni_command scs scp path texts file noData delim = bbni_command scs scp path texts file' noData delim'.
Proof.
  intros scs scp path texts noData rs file delim r text file' delim' r' text' N N' H1 H2 H3 H4 H1' H2' H3' H4'. unfold single_rune in *. unfold ShellModel.bbni_command. rewrite H1, H1'. unfold app_train, app_options. cbn [op_training op_delimiter op_no_data op_file op_evidence].
  destruct (String.eqb_spec file ""); [contradiction|]. destruct (String.eqb_spec file' ""); [contradiction|]. rewrite (csv_file_text file r rs text H3 H2 H4), (csv_file_text file' r' rs text' H3' H2' H4'). reflexivity.
Qed.
(** What is read is what the theorems about records (C56, C80, C82) are about. If the text can't be
    read, bbn train fails. *)
Theorem C127_train_records : forall netFile noData rs file delim r text, single_rune delim r -> separator r -> files file = Some text -> file_text r rs text ->
  train_command netFile file delim noData = ShellModel.train_command parse_float D read_file yaml_of xml_of (fun _ _ => Some rs) netFile file delim noData.
Proof.
  intros netFile noData rs file delim r text H1 H2 H3 H4. unfold single_rune in *. unfold ShellModel.train_command. rewrite H1, (csv_file_text file r rs text H3 H2 H4). reflexivity.
Qed.
Theorem C127_train_errors : forall netFile noData file delim r text net, single_rune delim r -> fst (from_file parse_float D read_file yaml_of xml_of factors netFile) = Ok net -> files file = Some text ->
  ~ separator r \/ Nat.even (List.length (filter (fun b => b =? quote_byte) text)) = false ->
  exists e, train_command netFile file delim noData = Err e.
Proof.
  intros netFile noData file delim r text net H1 H2 H3 H. apply C80_errors. right. right. exists r, net. split; auto. split; auto. left. unfold csv_file. rewrite H3. destruct H as [H|H].
  - destruct (C127_delimiters r text H) as (e & ->). reflexivity.
  - destruct (csv_read r text) as [rs| |] eqn:E; auto. apply C127_quotes in E. congruence.
Qed.
End Commands.

(** The data of C80, written plainly with semicolons and in quotes with arrows. *)
Fixpoint plain_record (r : Z) (fs : list string) : list Z :=
  match fs with [] => [] | [f] => bytes_of f | f :: fs' => bytes_of f ++ encode r ++ plain_record r fs' end.
Definition plain_file (r : Z) (rs : list (list string)) : list Z := flat_map (fun fs => plain_record r fs ++ [10]) rs.
Definition plain_b (r : Z) (f : string) : bool :=
  forallb (fun b => negb (b =? 34) && negb (b =? 10) && negb (b =? 13)) (bytes_of f) && match index_of (encode r) (bytes_of f) with None => true | _ => false end.
Lemma index_occurs d l : index_of d l = None -> ~ occurs d l.
Proof.
  intros H (a & b & ->). revert H. induction a as [|c a IH]; cbn [Datatypes.app]; intros H.
  - destruct (d ++ b) as [|x y] eqn:E; cbn [index_of] in H; rewrite <- E, starts_app in H; discriminate H.
  - cbn [index_of] in H. destruct (starts_with d (c :: a ++ d ++ b)); [discriminate H|]. destruct (index_of d (a ++ d ++ b)); [discriminate H|]. auto.
Qed.
Lemma plain_b_sound r f : plain_b r f = true -> field_text r f (bytes_of f).
Proof.
  intros H. apply andb_true_iff in H. destruct H as [H1 H2]. rewrite forallb_forall in H1. constructor; try (intros Hi; apply H1 in Hi; discriminate Hi). apply index_occurs. destruct (index_of _ _); auto. discriminate.
Qed.
Lemma plain_file_ok r rs : separator r -> forallb (fun fs => forallb (plain_b r) fs && match fs with [] => false | [f] => negb (String.eqb f "") | _ => true end) rs = true -> file_text r rs (plain_file r rs).
Proof.
  intros Hr. assert (R : forall fs, forallb (plain_b r) fs = true -> fs <> [] -> record_text r fs (plain_record r fs)).
  { induction fs as [|f fs IH]; intros H Hne; [congruence|]. cbn [forallb] in H. apply andb_true_iff in H. destruct H as [H1 H2]. apply plain_b_sound in H1. destruct fs as [|g fs]; [apply one_field; auto|].
    change (plain_record r (f :: g :: fs)) with (bytes_of f ++ encode r ++ plain_record r (g :: fs)). apply more_fields; auto. apply IH; auto. discriminate. }
  induction rs as [|fs rs IH]; intros H; [apply no_lines|]. cbn [forallb] in H. apply andb_true_iff in H. destruct H as [H H']. apply andb_true_iff in H. destruct H as [H1 H2]. unfold plain_file. cbn [flat_map]. rewrite <- app_assoc.
  apply next_record; [apply R; auto; intros ->; discriminate H2| |left; auto|apply IH; auto].
  destruct fs as [|f [|g fs]]; [discriminate H2| |].
  - cbn [plain_record]. destruct f; [discriminate H2|discriminate].
  - change (plain_record r (f :: g :: fs)) with (bytes_of f ++ encode r ++ plain_record r (g :: fs)). destruct (sep_facts r Hr) as (h & tl & -> & _). destruct (bytes_of f); discriminate.
Qed.
Definition trip_rows := trip_header :: trip_records.
Definition trip_files (path : string) : option (list Z) :=
  if String.eqb path "trip.csv" then Some (plain_file 59 trip_rows)
  else if String.eqb path "quoted.csv" then Some ([13; 10] ++ quoted_file 8594 [13; 10] trip_rows)
  else if String.eqb path "broken.csv" then Some (bytes_of "weather;""mood" ++ [10]) else None.
Definition learn_text (dataFile delim noData : string) : gores (ydoc xnum) := train_command read_number (ydoc xnum) disk Some no_xml (csv_file trip_files) "trip.yml" dataFile delim noData.
Lemma no_crlf f : forallb (fun b => negb (b =? 10)) (bytes_of f) = true -> ~ occurs [13; 10] (bytes_of f).
Proof. intros H (a & b & E). rewrite E, forallb_forall in H. assert (Hi : In 10 (a ++ [13; 10] ++ b)) by (apply in_or_app; right; right; left; auto). apply H in Hi. discriminate Hi. Qed.
Lemma sep_b r : valid_delim r = true -> separator r.
Proof. apply separator_valid. Qed.
Example C127_hypotheses : single_rune ";" 59 /\ separator 59 /\ file_text 59 trip_rows (plain_file 59 trip_rows) /\
  single_rune "→" 8594 /\ separator 8594 /\ file_text 8594 trip_rows ([13; 10] ++ quoted_file 8594 [13; 10] trip_rows) /\
  ~ separator 34 /\ ~ separator 10 /\ load "trip.yml" = Ok trip_file.
Proof.
  split; [reflexivity|]. split; [apply sep_b; reflexivity|]. split; [apply plain_file_ok; [apply sep_b; reflexivity|vm_compute; reflexivity]|]. split; [vm_compute; reflexivity|]. split; [apply sep_b; reflexivity|]. split.
  - apply blank_line; [right; auto|]. apply C127_writable; [right; auto|]. intros fs Hfs.
    assert (K : forallb (fun fs => negb (match fs with [] => true | _ => false end) && forallb (fun f => forallb (fun b => negb (b =? 10)) (bytes_of f)) fs) trip_rows = true) by (vm_compute; reflexivity).
    rewrite forallb_forall in K. apply K in Hfs. apply andb_true_iff in Hfs. destruct Hfs as [H1 H2]. split; [intros ->; discriminate H1|]. intros f Hf. rewrite forallb_forall in H2. apply no_crlf. auto.
  - split; [intros [_ H]; apply H; simpl; tauto|]. split; [intros [_ H]; apply H; simpl; tauto|]. apply C80_example.
Qed.
Example C127_example : learn_text "trip.csv" ";" "n/a" = learn_text "quoted.csv" "→" "n/a" /\
  match learn_text "quoted.csv" "→" "n/a" with Ok d => map (fun v => (y_name v, map (map xshow) (y_table v))) (yd_vars d) | _ => [] end =
    match learn "trip.yml" "trip.csv" ";" "n/a" with Ok d => map (fun v => (y_name v, map (map xshow) (y_table v))) (yd_vars d) | _ => [("", [])] end /\
  is_err (learn_text "quoted.csv" ";" "n/a") = true /\ is_err (learn_text "broken.csv" ";" "n/a") = true /\ is_err (learn_text "trip.csv" """" "n/a") = true.
Proof.
  destruct C127_hypotheses as (H1 & H2 & H3 & H4 & H5 & H6 & _). split; [|repeat match goal with |- _ /\ _ => split end; vm_compute; reflexivity].
  apply (C127_train _ _ _ _ _ _ _ _ trip_rows "trip.csv" ";" 59 (plain_file 59 trip_rows) "quoted.csv" "→" 8594 ([13; 10] ++ quoted_file 8594 [13; 10] trip_rows)); auto.
Qed.
(** Quotes, separators and line ends in quotes are part of the field, and so are spaces. CR LF in quotes
    becomes LF, a blank line is not a record with an empty field, and a quote in a field without quotes is an error. *)
Example C127_fields : csv_read 44 (bytes_of "a, b,""c,""""d""""" ++ [10] ++ bytes_of """" ++ [10; 10; 13; 10] ++ bytes_of """x""" ++ [44] ++ bytes_of """1" ++ [13; 10] ++ bytes_of "2"",") =
    Ok [["a"; " b"; byte_string (bytes_of "c,""d""" ++ [10])]; ["x"; byte_string (bytes_of "1" ++ [10] ++ bytes_of "2"); ""]] /\
  csv_read 44 (bytes_of "a,b ""c""") = Err (EMsg "bare quote") /\ csv_read 44 (bytes_of """a"" ,b") = Err (EMsg "extraneous quote").
Proof. repeat split; vm_compute; reflexivity. Qed.

Print Assumptions C127_read.
Print Assumptions C127_unambiguous.
Print Assumptions C127_writable.
Print Assumptions C127_delimiters.
Print Assumptions C127_quotes.
Print Assumptions C127_train.
Print Assumptions C127_bbni.
Print Assumptions C127_train_records.
Print Assumptions C127_train_errors.
