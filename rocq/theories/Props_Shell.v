(** Properties C79-C82: the commands bbn inference, bbn train and bbni, and the files they read (cmd/, network.go).
    Specification vocabulary: SpecShell.v, with SpecTui.v, SpecTrain.v, SpecCli.v and SpecDoc.v. *)
From Coq Require Import ZArith QArith Qcanon List Bool String Ascii Lia.
From Verif Require Import Num GoBase GoFacts VarModel VEModel SpecVE VECheck XnumFacts NetModel SpecNet NetNew NetCheck SpecNetPolicy NetPolicyThms TextModel TrainModel SpecTrain TrainFacts TrainThms LogicModel LogicShape DocModel SpecDoc DocFacts DocRound
  CliModel SpecCli TuiModel SpecTui TuiDraw SpecApp TuiApp TuiStart Props_VE Props_Net Props_Train Props_Doc Props_Cli Props_Tui ShellModel SpecShell ShellFacts.
From Verif Require Import SpecTrain.
Import ListNotations.
Open Scope string_scope.
Open Scope list_scope.
Open Scope Z_scope.

Section Files.
Context {A : Type} {N : NumOps A}.
Variables (parse_float : string -> option A) (D : Type) (read_file : string -> option D) (yaml_of : D -> option (ydoc A)) (xml_of : D -> option xdoc).
Notation from_file := (from_file parse_float D read_file yaml_of xml_of).

(** ** C81: the format of a file *)
(** Files are read as YAML if the name ends with .yml and as XML if it ends with .xml or .bifxml, in small or capital letters. *)
Theorem C81_formats : forall reg path e data, ascii_only path -> has_extension path e -> read_file path = Some data ->
  (any_case "yml" e -> from_file reg path = match yaml_of data with Some doc => from_yaml reg doc | None => (Err (EMsg "YAML syntax error"), reg) end) /\
  (any_case "xml" e \/ any_case "bifxml" e -> from_file reg path = match xml_of data with Some doc => (from_xml parse_float doc, reg) | None => (Err (EMsg "XML syntax error"), reg) end).
Proof.
  intros reg path e data Ha He Hd. pose proof (ext_lower path e "yml" He Ha (letters_b "yml" eq_refl)) as H1. pose proof (ext_lower path e "xml" He Ha (letters_b "xml" eq_refl)) as H2.
  pose proof (ext_lower path e "bifxml" He Ha (letters_b "bifxml" eq_refl)) as H3. change ("." ++ "yml")%string with ".yml" in H1. change ("." ++ "xml")%string with ".xml" in H2. change ("." ++ "bifxml")%string with ".bifxml" in H3.
  unfold ShellModel.from_file. rewrite Hd. cbv zeta. split.
  - intros H. rewrite (proj2 H1 H). reflexivity.
  - intros H. destruct (String.eqb _ ".yml") eqn:E.
    + exfalso. pose proof E as E'. apply String.eqb_eq in E'. rewrite E' in H2, H3. destruct H as [H|H]; [apply H2 in H|apply H3 in H]; discriminate H.
    + replace (String.eqb (to_lower (file_ext path)) ".xml" || String.eqb (to_lower (file_ext path)) ".bifxml") with true; [reflexivity|]. symmetry. apply orb_true_iff. destruct H as [H|H]; [left; apply H2; auto|right; apply H3; auto].
Qed.
(** All other files, and files that can't be read, are errors. *)
Theorem C81_other_formats : forall reg path, ascii_only path ->
  read_file path = None \/ (forall e, ~ has_extension path e) \/ (exists e, has_extension path e /\ ~ any_case "yml" e /\ ~ any_case "xml" e /\ ~ any_case "bifxml" e) ->
  exists err, from_file reg path = (Err err, reg).
Proof.
  intros reg path Ha H. unfold ShellModel.from_file. destruct (read_file path) as [data|]; [|eauto]. cbv zeta. destruct H as [H|[H|(e & He & N1 & N2 & N3)]]; [discriminate H| |].
  - rewrite (extension_none path H). cbn. eauto.
  - pose proof (ext_lower path e "yml" He Ha (letters_b "yml" eq_refl)) as H1. pose proof (ext_lower path e "xml" He Ha (letters_b "xml" eq_refl)) as H2. pose proof (ext_lower path e "bifxml" He Ha (letters_b "bifxml" eq_refl)) as H3.
    change ("." ++ "yml")%string with ".yml" in H1. change ("." ++ "xml")%string with ".xml" in H2. change ("." ++ "bifxml")%string with ".bifxml" in H3.
    destruct (String.eqb _ ".yml"); [exfalso; apply N1, H1; auto|]. destruct (String.eqb _ ".xml"); [exfalso; apply N2, H2; auto|]. destruct (String.eqb _ ".bifxml"); [exfalso; apply N3, H3; auto|]. cbn. eauto.
Qed.
(** A path has at most one extension. *)
Theorem C81_one_extension : forall path e e', has_extension path e -> has_extension path e' -> e = e'.
Proof. intros path e e' H H'. apply extension_found in H, H'. rewrite H in H'. injection H'. auto. Qed.

(** ** C80: training on the command line *)
Variable csv_of : string -> Z -> option (list (list string)).
Notation train_command := (train_command parse_float D read_file yaml_of xml_of csv_of).
(** If bbn train prints a document, then the network and the data were read with this delimiter, training succeeded, and reading the document gives the trained network, without info and colors. *)
Theorem C80_written : forall netFile dataFile delim noData doc, train_command netFile dataFile delim noData = Ok doc ->
  exists r net lines trained, single_rune delim r /\ fst (from_file factors netFile) = Ok net /\ csv_of dataFile r = Some lines /\ train_csv parse_float net lines noData = (trained, Ok tt) /\
    (trainable net -> plain_parents net -> forall docs, exists n', fst (from_yaml (after_loading docs) doc) = Ok n' /\
      n_name n' = n_name net /\ n_tui n' = n_tui net /\
      Forall2 (fun v v' => same_but_color v v' /\ exists f f', factor_of trained v = Some f /\ factor_of n' v' = Some f' /\ equal_factors f f') (n_vars net) (n_vars n')).
Proof.
  intros netFile dataFile delim noData doc E. unfold ShellModel.train_command in E. destruct (runes_of delim) as [|r [|r' l]] eqn:Er; try discriminate E.
  destruct (fst (from_file factors netFile)) as [net| |] eqn:En; cbn [gbind] in E; try discriminate E. destruct (csv_of dataFile r) as [lines|] eqn:Ec; [|discriminate E].
  destruct (train_csv parse_float net lines noData) as [trained [[]| |]] eqn:Et; cbn [gbind] in E; try discriminate E.
  exists r, net, lines, trained. split; [exact Er|]. split; auto. split; auto. split; auto. intros Hta Hpp docs.
  destruct (from_file_new parse_float D read_file yaml_of xml_of factors netFile net (after_loading_like []) En) as (name & info & vars & fs & Hnil & Hnew & Hf).
  pose proof (trainable_rows name info vars fs net Hnil Hnew Hf Hta) as Hrows.
  assert (Hd : only_tables_differ net trained).
  { destruct lines as [|header records]; [discriminate Et|]. destruct (C56_cases parse_float (n_vars net) noData header records) as [Hr|Hu].
    - destruct (C56_samples parse_float net noData header records Hta Hr) as (samples & Hs & Es). rewrite Es in Et. refine (proj1 (C41_changes_only_tables net samples trained (Ok tt) Hta Hpp _ Et)).
      intros smp Hin. clear - Hs Hin. induction Hs as [|a b l l' H _ IH]; [destruct Hin|]. destruct Hin as [<-|Hin]; [apply H|auto].
    - destruct (C56_errors parse_float net noData header records Hta Hu) as (e & Ee). rewrite Ee in Et. discriminate Et. }
  destruct (round_trip_tables name info vars fs net Hnil Hnew Hrows (after_loading docs) trained (after_loading_like docs) Hd) as (doc' & n' & E1 & E2 & E3 & E4 & _ & E5 & _).
  assert (doc' = doc) by congruence. subst doc'. destruct Hd as (Dn & _ & Dv & _ & _ & _ & Dt & _). exists n'. split; auto. split; [congruence|]. split; [congruence|]. rewrite <- Dv. exact E5.
Qed.
(** There is an error if the delimiter is not a single character, a file can't be read or a record is wrong. *)
Theorem C80_errors : forall netFile dataFile delim noData,
  (forall r, ~ single_rune delim r) \/ (exists e, fst (from_file factors netFile) = Err e) \/
  (exists r net, single_rune delim r /\ fst (from_file factors netFile) = Ok net /\
     (csv_of dataFile r = None \/ csv_of dataFile r = Some [] \/ exists header records, csv_of dataFile r = Some (header :: records) /\ trainable net /\ unreadable parse_float (n_vars net) noData header records)) ->
  exists e, train_command netFile dataFile delim noData = Err e.
Proof.
  intros netFile dataFile delim noData H. unfold ShellModel.train_command. destruct (runes_of delim) as [|r [|r' l]] eqn:Er; [eauto| |eauto].
  destruct H as [H|[(e & ->)|(r' & net & Hr & -> & H)]]; [exfalso; apply (H r); exact Er|cbn [gbind]; eauto|]. unfold single_rune in Hr. assert (r' = r) by congruence. subst r'. cbn [gbind].
  destruct H as [->|[->|(header & records & -> & Ht & Hu)]]; [eauto|cbn; eauto|]. destruct (C56_errors parse_float net noData header records Ht Hu) as (e & ->). cbn [gbind]. eauto.
Qed.
End Files.

(** In exact arithmetic: the network that was written has the relative frequencies of the records. *)
Theorem C80_frequencies : forall parse_float D read_file yaml_of xml_of csv_of netFile dataFile delim noData doc,
  train_command parse_float D read_file yaml_of xml_of csv_of netFile dataFile delim noData = Ok doc ->
  exists r net header records, single_rune delim r /\ fst (from_file parse_float D read_file yaml_of xml_of factors netFile) = Ok net /\ csv_of dataFile r = Some (header :: records) /\
    (trainable net -> plain_parents net -> (forall v, In v (n_vars net) -> NoDup (nv_outcomes v)) ->
     readable parse_float (n_vars net) noData header records /\
     forall docs, exists n', fst (from_yaml (after_loading docs) doc) = Ok n' /\ n_name n' = n_name net /\
       forall v f, In v (n_vars net) -> own_factor net v f ->
       exists v' f', In (v, v') (combine (n_vars net) (n_vars n')) /\ same_but_color v v' /\ own_factor n' v' f' /\ nf_given f' = nf_given f /\
         (nv_type v = Decision -> slice_of (nf_table f') = []) /\
         (nv_type v = Chance -> (forall g, In g (nf_given f) -> exists p, In p (n_vars net) /\ nv_name p = g /\ nv_type p <> Utility) ->
          forall s, state_of (n_vars net) s ->
          nth_error (slice_of (nf_table f')) (cell (n_vars net) (nf_given f ++ [nv_name v]) s) =
          Some (Fin (qz (count_of (record_shows (n_vars net) header (nf_given f ++ [nv_name v]) s) records) /
                     qz (count_of (fun r => record_shows (n_vars net) header (nf_given f) s r && record_knows noData header (nv_name v) r) records))%Qc))).
Proof.
  intros pf D read_file yaml_of xml_of csv_of netFile dataFile delim noData doc E. destruct (C80_written pf D read_file yaml_of xml_of csv_of netFile dataFile delim noData doc E) as (r & net & lines & trained & Hr & En & Ec & Et & H).
  destruct lines as [|header records]; [discriminate Et|]. exists r, net, header, records. split; auto. split; auto. split; auto. intros Hta Hpp Hout.
  assert (Hrd : readable pf (n_vars net) noData header records).
  { destruct (C56_cases pf (n_vars net) noData header records) as [Hrd|Hu]; auto. destruct (C56_errors pf net noData header records Hta Hu) as (e & Ee). rewrite Ee in Et. discriminate Et. }
  assert (Hd : only_tables_differ net trained).
  { destruct (C56_samples pf net noData header records Hta Hrd) as (samples & Hs & Es). rewrite Es in Et. refine (proj1 (C41_changes_only_tables net samples trained (Ok tt) Hta Hpp _ Et)).
    intros smp Hin. clear - Hs Hin. induction Hs as [|a b l l' H _ IH]; [destruct Hin|]. destruct Hin as [<-|Hin]; [apply H|auto]. }
  split; auto. intros docs. destruct (H Hta Hpp docs) as (n' & E1 & E2 & _ & F). exists n'. split; auto. split; auto.
  intros v f Hv Hf. destruct (Forall2_in_combine _ _ _ F v Hv) as (v' & Hin & Hs & g & g' & G1 & G2 & G3 & G4 & G5 & _).
  exists v', g'. split; auto. split; auto. split; [unfold factor_of in G2; destruct (nv_factor v') as [k|] eqn:Ek; [exists k; auto|discriminate G2]|].
  destruct Hf as (k & K1 & K2). destruct Hd as (_ & _ & _ & _ & _ & _ & _ & Df). destruct (Forall2_nth_l _ _ _ Df _ _ K2) as (g0 & K3 & S1 & S2 & S3 & S4 & S5).
  assert (g0 = g) by (unfold factor_of in G1; rewrite K1, K3 in G1; congruence). subst g0. split; [congruence|]. split.
  - intros Hdec. rewrite G5. destruct (ta_factor net Hta v Hv) as (f0 & (k0 & J1 & J2) & _ & _ & _ & _ & J3 & _). assert (f0 = f) by congruence. subst f0. specialize (J3 Hdec). destruct (nf_table f) as [[|x l]|]; [| |]; destruct (nf_table g) as [[|y l']|]; cbn in S5, J3 |- *; auto; discriminate.
  - intros Hch Hpar s Hst. rewrite G5.
    destruct (C56_frequencies pf net noData header records trained Hta Hpp Hout Hrd Et v f Hv Hch (ex_intro _ k (conj K1 K2)) Hpar) as (f2 & (k2 & L1 & L2) & L3).
    assert (f2 = g) by congruence. subst f2. apply L3. auto.
Qed.

(** ** C79: what bbn inference prints *)
Section Commands.
Variables (parse_float : string -> option xnum) (D : Type) (read_file : string -> option D) (yaml_of : D -> option (ydoc xnum)) (xml_of : D -> option xdoc) (csv_of : string -> Z -> option (list (list string))).
Notation from_file := (from_file parse_float D read_file yaml_of xml_of).
Notation inference_command := (inference_command parse_float D read_file yaml_of xml_of).
Notation bbni_command := (bbni_command parse_float D read_file yaml_of xml_of csv_of).
(** Two lines for each node, with the probabilities in percent or utilities of the network that uses the policies of SolvePolicies; see [shown_numbers]. *)
Theorem C79_posteriors : forall scs scp path texts ev n, fst (from_file factors path) = Ok n -> solvable n -> showable n -> parse_evidence texts = Ok ev -> valid_observations n ev ->
  exists n' tables blocks, net_solve_policies scp n true = (n', Ok tables) /\ inference_command scs scp path texts = Ok (List.concat blocks) /\ Forall2 (prints_node n' ev) (n_vars n) blocks.
Proof.
  intros scs scp path texts ev n E Hso Hsw Hp Hev. destruct (run_inference_ok scs scp n texts ev Hso Hsw Hp Hev) as (n' & tables & m & H1 & H2 & H3 & H4).
  exists n', tables, (map (inference_lines ev m) (n_vars n)). split; auto. split.
  - unfold ShellModel.inference_command. rewrite E. cbn [gbind]. rewrite H3. cbn [gbind]. rewrite flat_map_concat_map. reflexivity.
  - apply Forall2_map_r. intros v Hv. rewrite <- (sr_vars _ _ _ H2) in Hv. apply inference_lines_ok; auto. apply (wn_names n' (sr_wf _ _ _ H2)).
Qed.
(** The columns of outcomes and numbers are aligned, if names are not too long. *)
Theorem C79_columns : forall scs scp path texts ev n, fst (from_file factors path) = Ok n -> solvable n -> showable n -> parse_evidence texts = Ok ev -> valid_observations n ev ->
  exists blocks, inference_command scs scp path texts = Ok (List.concat blocks) /\
    Forall2 (fun v lines => nv_type v <> Utility -> zlen (runes_of (nv_name v)) <= 30 -> (forall o, In o (nv_outcomes v) -> zlen (runes_of o) <= 10) ->
      exists l1 l2, lines = [l1; l2] /\ zlen l1 = 30 + 11 * zlen (nv_outcomes v) /\ zlen l2 = zlen l1 + match sget_map ev (nv_name v) with Some _ => 3 | None => 0 end) (n_vars n) blocks.
Proof.
  intros scs scp path texts ev n E Hso Hsw Hp Hev. destruct (run_inference_ok scs scp n texts ev Hso Hsw Hp Hev) as (n' & tables & m & H1 & H2 & H3 & H4).
  exists (map (inference_lines ev m) (n_vars n)). split.
  - unfold ShellModel.inference_command. rewrite E. cbn [gbind]. rewrite H3. cbn [gbind]. rewrite flat_map_concat_map. reflexivity.
  - apply Forall2_map_r. intros v Hv Ht Hn Ho. assert (Hev' : valid_observations n' ev) by (destruct Hev as [Ha Hb]; split; auto; rewrite (sr_vars _ _ _ H2); auto). rewrite <- (sr_vars _ _ _ H2) in Hv.
    destruct (inference_columns n' ev m v (start_displayable n n' tables Hsw H2) Hev' H4 Hv Ht Hn Ho) as (l1 & l2 & E0 & L1 & L2). exists l1, l2. split; auto. split; auto. lia.
Qed.

(** ** C82: bbni *)
(** The terminal application starts with the network in the file, trained if there is a training file, and shows the numbers that bbn inference prints for it. *)
Theorem C82_starts : forall scs scp path texts ev training noData delim r net n, parse_evidence texts = Ok ev -> single_rune delim r -> fst (from_file factors path) = Ok net ->
  (training = "" /\ n = net) \/ (training <> "" /\ exists lines, csv_of training r = Some lines /\ train_csv parse_float net lines "" = (n, Ok tt)) ->
  solvable n -> showable n -> valid_observations n ev ->
  exists n' tables a, net_solve_policies scp n true = (n', Ok tables) /\ bbni_command scs scp path texts training noData delim = Ok a /\
    a_evidence a = ev /\ a_running a = true /\ map t_var (a_nodes a) = n_vars n /\ displayed n' false ev (a_marginals a).
Proof.
  intros scs scp path texts ev training noData delim r net n Hp Hr En Htr Hso Hsw Hev. destruct (app_run_ok scs scp n ev Hso Hsw Hev) as (n' & tables & a & H1 & H2 & H3 & H4 & _ & H5 & H6 & H7 & H8 & _).
  exists n', tables, a. split; auto. assert (Ec : bbni_command scs scp path texts training noData delim = Ok a).
  { unfold ShellModel.bbni_command. rewrite Hp. cbn [gbind]. unfold single_rune in Hr. rewrite Hr. cbv zeta. cbn [app_options op_file op_evidence]. rewrite En. cbn [gbind]. unfold app_train. cbn [op_training op_delimiter op_no_data].
    destruct Htr as [(-> & ->)|(Ht & lines & Ec & Et)]; [exact H3|]. unfold app_options. cbn [op_training op_delimiter op_no_data]. destruct (String.eqb_spec training "") as [E0|_]; [congruence|]. rewrite Ec, Et. cbn [gbind]. exact H3. }
  split; auto. split; auto. split; auto. split; auto.
  destruct (C62_numbers n ev (fun _ => false) scp a Hso Hsw Hev) as (n2 & tables2 & E2 & Hdis); [exists scs, a, []; split; auto|]. rewrite H1 in E2. injection E2 as <- _. rewrite H5, H6 in Hdis. exact Hdis.
Qed.
(** Mistakes in the arguments are errors. *)
Theorem C82_errors : forall scs scp path texts training noData delim,
  (exists e, parse_evidence texts = Err e) \/ (forall r, ~ single_rune delim r) \/ (exists e, fst (from_file factors path) = Err e) \/
  (exists r, single_rune delim r /\ training <> "" /\ csv_of training r = None /\ exists net, fst (from_file factors path) = Ok net) ->
  exists e, bbni_command scs scp path texts training noData delim = Err e.
Proof.
  intros scs scp path texts training noData delim H. unfold ShellModel.bbni_command. pose proof (C55_error texts) as Hpe.
  destruct (parse_evidence texts) as [ev|e|p] eqn:Ep; cbn [gbind]; [|eauto|].
  2:{ exfalso. destruct (forallb (fun s => Nat.eqb (equals_signs s) 1) texts) eqn:Ef.
      - destruct (C55_last_wins texts) as (m & Em & _); [|congruence]. intros s Hs. rewrite forallb_forall in Ef. apply Nat.eqb_eq. auto.
      - apply not_true_iff_false in Ef. assert (X : exists s, In s texts /\ equals_signs s <> 1%nat).
        { clear - Ef. induction texts as [|s l IH]; [exfalso; apply Ef; auto|]. cbn in Ef. destruct (Nat.eqb_spec (equals_signs s) 1) as [E|E]; [|exists s; split; [left; auto|auto]]. cbn in Ef. destruct (IH Ef) as (t & H1 & H2). exists t. split; [right|]; auto. }
        apply Hpe in X. destruct X as (e & X). discriminate X. }
  destruct (runes_of delim) as [|r [|r' l]] eqn:Er; [eauto| |eauto]. destruct H as [(e & H)|[H|[(e & H)|(r0 & Hr & Ht & Hc & net & Hn)]]]; [discriminate H|exfalso; apply (H r); exact Er| |]; cbn [app_options op_file].
  - rewrite H. cbn [gbind]. eauto.
  - rewrite Hn. cbn [gbind]. unfold single_rune in Hr. assert (r0 = r) by congruence. subst r0. unfold app_train, app_options. cbn [op_training op_delimiter op_no_data]. destruct (String.eqb_spec training "") as [E0|_]; [congruence|]. rewrite Hc. cbn [gbind]. eauto.
Qed.
End Commands.

(** ** Examples *)
(** A directory with the umbrella network, the network of Props_Train and its data. *)
Definition doc_of (n : network xnum) : ydoc xnum := match to_yaml n with Ok d => d | _ => mkYDoc "" "" [] end.
Definition disk (path : string) : option (ydoc xnum) :=
  if String.eqb path "nets/umbrella.v2.YML" then Some (doc_of show) else if String.eqb path "trip.yml" then Some (doc_of trip) else if String.eqb path "trip.yaml" then Some (doc_of trip) else None.
Definition no_xml (_ : ydoc xnum) : option xdoc := None.
Definition data_files (path : string) (delim : Z) : option (list (list string)) :=
  if String.eqb path "trip.csv" && (delim =? 59) then Some (trip_header :: trip_records) else None.
Definition load (path : string) : gores (network xnum) := fst (from_file read_number (ydoc xnum) disk Some no_xml factors path).
Definition infer (path : string) (texts : list string) : gores (list (list Z)) := inference_command read_number (ydoc xnum) disk Some no_xml (fun _ => sched_id) sched_rev path texts.
Definition learn (netFile dataFile delim noData : string) : gores (ydoc xnum) := train_command read_number (ydoc xnum) disk Some no_xml data_files netFile dataFile delim noData.
Definition umbrella_file : network xnum := match load "nets/umbrella.v2.YML" with Ok n => n | _ => show end.
Definition trip_file : network xnum := match load "trip.yml" with Ok n => n | _ => trip end.

Lemma ascii_b s : forallb (fun c => Nat.ltb (nat_of_ascii c) 128) (chars s) = true -> ascii_only s.
Proof. intros H c Hc. rewrite forallb_forall in H. apply Nat.ltb_lt. auto. Qed.
Lemma loaded path d : is_ok (load path) = true -> load path = Ok (match load path with Ok n => n | _ => d end).
Proof. destruct (load path); auto; intros H; discriminate H. Qed.
Example C81_example : has_extension "nets/umbrella.v2.YML" "YML" /\ any_case "yml" "YML" /\ ascii_only "nets/umbrella.v2.YML" /\
  is_ok (load "nets/umbrella.v2.YML") = true /\ is_err (load "trip.yaml") = true /\ is_err (load "nothing.yml") = true /\
  (forall e, ~ has_extension "nets.v2/umbrella" e) /\ ~ any_case "yml" "yaml".
Proof.
  split; [exists "nets/umbrella.v2"; split; [reflexivity|]; split; vm_compute; intuition discriminate|]. split.
  { apply lower_any_case; [apply letters_b; reflexivity|apply ascii_b; reflexivity|reflexivity]. }
  split; [apply ascii_b; reflexivity|].
  do 3 (split; [vm_compute; reflexivity|]). split.
  - intros e He. apply extension_found in He. vm_compute in He. discriminate He.
  - intros H. apply any_case_lower in H; [vm_compute in H; discriminate H|apply letters_b; reflexivity|apply ascii_b; reflexivity].
Qed.
Example C79_example : load "nets/umbrella.v2.YML" = Ok umbrella_file /\ solvable umbrella_file /\ showable umbrella_file /\
  parse_evidence ["forecast=rainy"] = Ok [("forecast", "rainy")] /\ valid_observations umbrella_file [("forecast", "rainy")] /\
  infer "nets/umbrella.v2.YML" ["forecast=rainy"] = Ok (map runes_of
    ["                                    sunny      rainy";
     "                       weather    28.000%    72.000%";
     "                                    sunny     cloudy      rainy";
     "                      forecast     0.000%     0.000%   100.000%  +";
     "                                     take      leave";
     "                      umbrella   100.000%     0.000%";
     "                                    value";
     "                          mood     56.000     56.000"]) /\
  match infer "nets/umbrella.v2.YML" [] with Ok l => nth_error l 1 = Some (runes_of "                       weather    70.000%    30.000%") | _ => False end.
Proof.
  split; [apply loaded; vm_compute; reflexivity|].
  split; [left; split; [apply (decision_network_b_sound umbrella_file (fun x => SpecNet.position x ["weather"; "forecast"; "umbrella"])); vm_compute; reflexivity|apply no_forgetting_b_sound; vm_compute; reflexivity]|].
  split; [apply showable_b_sound; vm_compute; reflexivity|]. split; [reflexivity|]. split; [apply observations_b_sound; vm_compute; reflexivity|]. split; vm_compute; reflexivity.
Qed.
Print Assumptions C79_posteriors.
Print Assumptions C79_columns.
Definition trainable_b (n : network xnum) : bool :=
  nodup_b String.eqb (map nv_name (n_vars n)) &&
  forallb (fun v => negb (zlen (nv_outcomes v) =? 0) &&
    match factor_of n v with
    | None => false
    | Some f => String.eqb (nf_for f) (nv_name v) && forallb (fun '(a, b) => a =? b) (combine (nf_outcomes f) (map (fun g => Z.of_nat (num_outcomes (n_vars n) g)) (nf_given f))) && (zlen (nf_outcomes f) =? zlen (nf_given f)) &&
        (nf_columns f =? zlen (nv_outcomes v)) && forallb (fun g => existsb (fun p => String.eqb (nv_name p) g) (n_vars n)) (nf_given f) &&
        (if nodeType_eqb (nv_type v) Decision then zlen (slice_of (nf_table f)) =? 0 else Nat.eqb (List.length (slice_of (nf_table f))) (table_size (n_vars n) (nf_given f ++ [nf_for f]))) &&
        nodup_b String.eqb (nf_given f ++ [nf_for f])
    end) (n_vars n).
Lemma combine_eq_Z l : forall l', forallb (fun '(a, b) => a =? b) (combine l l') = true -> List.length l = List.length l' -> l = l'.
Proof. induction l as [|a l IH]; intros [|b l'] H E; cbn in *; try discriminate E; auto. apply andb_true_iff in H. destruct H as [H1 H2]. f_equal; [lia|]. apply IH; auto. Qed.
Lemma zlen_nil {X} (l : list X) : zlen l =? 0 = true -> l = [].
Proof. destruct l; auto. unfold zlen. cbn. intros H. discriminate H. Qed.
Lemma trainable_b_sound n : trainable_b n = true -> trainable n /\ plain_parents n.
Proof.
  intros H. apply andb_true_iff in H. destruct H as [Hn H]. rewrite forallb_forall in H.
  assert (G : forall v, In v (n_vars n) -> exists f, factor_of n v = Some f /\ own_factor n v f).
  { intros v Hv. specialize (H v Hv). apply andb_true_iff in H. destruct H as [_ H]. destruct (factor_of n v) as [f|] eqn:E; [|discriminate H]. exists f. split; auto. unfold factor_of in E. destruct (nv_factor v) as [k|] eqn:Ek; [|discriminate E]. exists k. auto. }
  split; [constructor|].
  - apply string_nodup_b. auto.
  - intros v Hv E. specialize (H v Hv). rewrite E in H. discriminate H.
  - intros v Hv. destruct (G v Hv) as (f & Ef & Ho). exists f. split; auto. specialize (H v Hv). apply andb_true_iff in H. destruct H as [_ H]. rewrite Ef in H.
    repeat match goal with H : _ && _ = true |- _ => apply andb_true_iff in H; destruct H end. split; [apply String.eqb_eq; auto|].
    split; [apply combine_eq_Z; auto; rewrite map_length; unfold zlen in *; lia|]. split; [lia|]. split; [|split].
    + intros g Hg. match goal with H : forallb _ (nf_given f) = true |- _ => rewrite forallb_forall in H; specialize (H g Hg); apply existsb_exists in H; destruct H as (p & Hp & E) end. exists p. split; auto. apply String.eqb_eq. auto.
    + intros E. rewrite E in *. cbn [nodeType_eqb] in *. apply zlen_nil. auto.
    + intros E. destruct (nodeType_eqb (nv_type v) Decision) eqn:Ed; [destruct (nv_type v); try discriminate Ed; congruence|]. apply Nat.eqb_eq. auto.
  - intros v f Hv (k & K1 & K2). specialize (H v Hv). apply andb_true_iff in H. destruct H as [_ H]. unfold factor_of in H. rewrite K1, K2 in H. apply andb_true_iff in H. destruct H as [_ H]. apply string_nodup_b. auto.
Qed.
Example C80_example : load "trip.yml" = Ok trip_file /\ trainable trip_file /\ plain_parents trip_file /\ single_rune ";" 59 /\
  match learn "trip.yml" "trip.csv" ";" "n/a" with Ok d => map (fun v => (y_name v, y_given v, map (map xshow) (y_table v))) (yd_vars d) | _ => [] end =
    [("weather", [], [[SFin (1#2); SFin (1#2)]]); ("forecast", ["weather"], [[SFin (1#2); SFin (1#2); SFin 0]; [SFin 0; SFin (1#3); SFin (2#3)]]);
     ("trip", ["forecast"], []); ("mood", ["weather"; "trip"], [[SFin (11#2)]; [SFin 2]; [SFin 3]; [SFin (1#2)]])] /\
  is_err (learn "trip.yml" "trip.csv" "" "n/a") = true /\ is_err (learn "trip.yml" "trip.csv" ";;" "n/a") = true /\ is_err (learn "trip.yml" "trip.csv" "," "n/a") = true /\
  is_err (learn "trip.yml" "trip.csv" ";" "") = true.
Proof.
  split; [apply loaded; vm_compute; reflexivity|].
  destruct (trainable_b_sound trip_file) as [H1 H2]; [vm_compute; reflexivity|]. split; auto. split; auto. split; [reflexivity|]. repeat match goal with |- _ /\ _ => split end; vm_compute; reflexivity.
Qed.
Print Assumptions C80_written.
Print Assumptions C80_errors.
Print Assumptions C80_frequencies.
Print Assumptions C81_formats.
Print Assumptions C81_other_formats.
(** bbni with the same files: the evidence is shown at the start, and training needs the right delimiter. *)
Definition bbni (path : string) (texts : list string) (training delim : string) : gores app :=
  bbni_command read_number (ydoc xnum) disk Some no_xml data_files (fun _ => sched_rev) sched_id path texts training "n/a" delim.
Definition complete_records := [["10"; "1"; "go"; "good"; "sunny"]; ["4"; "2"; "stay"; "mixed"; "sunny"]; ["6"; "3"; "go"; "bad"; "rainy"]; ["1"; "5"; "stay"; "mixed"; "rainy"]].
Definition learned : network xnum := fst (train_csv read_number trip_file (trip_header :: complete_records) "").
Example C82_example :
  numbers (bbni "nets/umbrella.v2.YML" ["forecast=cloudy"] "" ",") =
    [("forecast", [SFin 0; SFin 1; SFin 0]); ("weather", [SFin (28#43); SFin (15#43)]); ("umbrella", [SFin 0; SFin 1]); ("mood", [SFin (2800#43); SFin (2800#43)])] /\
  snd (train_csv read_number trip_file (trip_header :: complete_records) "") = Ok tt /\ solvable learned /\ showable learned /\
  is_err (bbni "nets/umbrella.v2.YML" ["forecast"] "" ",") = true /\ is_err (bbni "nets/umbrella.v2.YML" [] "" "") = true /\ is_err (bbni "trip.yml" [] "trip.csv" ",") = true.
Proof.
  split; [vm_compute; reflexivity|]. split; [vm_compute; reflexivity|].
  split; [left; split; [apply (decision_network_b_sound learned (fun x => SpecNet.position x ["weather"; "forecast"; "trip"])); vm_compute; reflexivity|apply no_forgetting_b_sound; vm_compute; reflexivity]|].
  split; [apply showable_b_sound; vm_compute; reflexivity|]. repeat match goal with |- _ /\ _ => split end; vm_compute; reflexivity.
Qed.
Print Assumptions C82_starts.
Print Assumptions C82_errors.
