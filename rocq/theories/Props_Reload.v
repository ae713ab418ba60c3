(** Property C97: networks that are saved and loaded again behave the same (yml.go, network.go, cmd/, internal/tui).
    Specification vocabulary: SpecReload.v, with SpecDoc.v, SpecTrain.v and SpecApp.v. *)
From Coq Require Import ZArith QArith Qcanon List Bool String Ascii Lia.
From Verif Require Import Num GoBase GoFacts VarModel VEModel XnumFacts NetModel SpecNet NetNew NetCheck TextModel TrainModel SpecTrain TrainFacts TrainThms LogicModel LogicShape DocModel SpecDoc DocFacts DocRound
  CliModel SpecCli TuiModel SpecTui SpecApp TuiApp TuiStart TuiTwice TuiMore Props_VE Props_Net Props_Train Props_Doc Props_Cli Props_Tui ShellModel SpecShell ShellFacts SpecReload NetBare NetReload ShellReload Props_Shell.
Import ListNotations.
Open Scope string_scope.
Open Scope list_scope.
Open Scope Z_scope.

(** ** C97: saving and loading *)

(** If the factors are in the order of the nodes, the network that was written and read again can't be told apart from the
    original by any call, after any other calls; in any arithmetic, also with errors and panics. *)
Theorem C97_reloaded : forall {A} {N : NumOps A} docs name info vars (fs : list (nfactor A)) n,
  (forall v, In v vars -> nv_factor v = None) -> net_new name info vars fs = Ok n -> map nf_for fs = map nv_name vars -> storable n ->
  exists doc n', to_yaml n = Ok doc /\ fst (from_yaml (after_loading docs) doc) = Ok n' /\ same_replies n n'.
Proof.
  intros A N docs name info vars fs n Hnil E Ho Hs. destruct (storable_rows name info vars fs n Hnil E Ho Hs) as [Hr Hne].
  destruct (reload_bare name info vars fs n Hnil E Ho Hr (after_loading docs) n (after_loading_like docs)) as (doc & n' & E1 & E2 & _ & _ & E3); auto.
  { repeat split. clear. induction (n_factors n); constructor; auto. repeat split. }
  exists doc, n'. split; auto. split; auto. apply bare_replies. auto.
Qed.

Section Files.
Context {A : Type} {N : NumOps A}.
Variables (parse_float : string -> option A) (D : Type) (read_file : string -> option D) (yaml_of : D -> option (ydoc A)) (xml_of : D -> option xdoc).
Notation from_file := (from_file parse_float D read_file yaml_of xml_of).
(** In networks from files the factors are in this order. *)
Theorem C97_files : forall docs path n, fst (from_file factors path) = Ok n -> storable n ->
  exists doc n', to_yaml n = Ok doc /\ fst (from_yaml (after_loading docs) doc) = Ok n' /\ same_replies n n'.
Proof.
  intros docs path n E Hs. destruct (from_file_built parse_float D read_file yaml_of xml_of factors path n (after_loading_like []) E) as (name & info & vars & fs & Hnil & Hnew & _ & Ho).
  apply (C97_reloaded docs name info vars fs n); auto.
Qed.

(** bbn train writes a document of the trained network: reading it gives a network that can't be told apart from the one in memory. *)
Variable csv_of : string -> Z -> option (list (list string)).
Notation train_command := (train_command parse_float D read_file yaml_of xml_of csv_of).
Theorem C97_trained : forall docs netFile dataFile delim noData doc, train_command netFile dataFile delim noData = Ok doc ->
  exists r net lines trained, single_rune delim r /\ fst (from_file factors netFile) = Ok net /\ csv_of dataFile r = Some lines /\ train_csv parse_float net lines noData = (trained, Ok tt) /\
    (trainable net -> plain_parents net -> storable net -> exists n', fst (from_yaml (after_loading docs) doc) = Ok n' /\ same_replies trained n').
Proof.
  intros docs netFile dataFile delim noData doc E. unfold ShellModel.train_command in E. destruct (runes_of delim) as [|r [|r' l]] eqn:Er; try discriminate E.
  destruct (fst (from_file factors netFile)) as [net| |] eqn:En; cbn [gbind] in E; try discriminate E. destruct (csv_of dataFile r) as [lines|] eqn:Ec; [|discriminate E].
  destruct (train_csv parse_float net lines noData) as [trained [[]| |]] eqn:Et; cbn [gbind] in E; try discriminate E.
  exists r, net, lines, trained. split; [exact Er|]. split; auto. split; auto. split; auto. intros Hta Hpp Hs.
  destruct (from_file_built parse_float D read_file yaml_of xml_of factors netFile net (after_loading_like []) En) as (name & info & vars & fs & Hnil & Hnew & _ & Ho).
  destruct (storable_rows name info vars fs net Hnil Hnew Ho Hs) as [Hr Hne].
  assert (Hd : only_tables_differ net trained).
  { destruct lines as [|header records]; [discriminate Et|]. destruct (C56_cases parse_float (n_vars net) noData header records) as [Hrd|Hu].
    - destruct (C56_samples parse_float net noData header records Hta Hrd) as (samples & Hsm & Es). rewrite Es in Et. refine (proj1 (C41_changes_only_tables net samples trained (Ok tt) Hta Hpp _ Et)).
      intros smp Hin. clear - Hsm Hin. induction Hsm as [|a b l l' H _ IH]; [destruct Hin|]. destruct Hin as [<-|Hin]; [apply H|auto].
    - destruct (C56_errors parse_float net noData header records Hta Hu) as (e & Ee). rewrite Ee in Et. discriminate Et. }
  destruct (reload_bare name info vars fs net Hnil Hnew Ho Hr (after_loading docs) trained (after_loading_like docs) Hd) as (doc' & n' & E1 & E2 & _ & _ & E3).
  { intros f Hf. destruct Hd as (_ & _ & _ & _ & _ & _ & _ & Df). destruct (Forall2_in_r _ _ _ _ Df Hf) as (g & Hg & (_ & _ & _ & _ & Hl)). pose proof (Hne g Hg) as Hn. intros Q. rewrite Q in Hl. destruct (nf_table g) as [[|x l]|]; cbn in Hl; [apply Hn; auto|discriminate|discriminate]. }
  assert (doc' = doc) by congruence. subst doc'. exists n'. split; auto. apply bare_replies. auto.
Qed.
End Files.

(** Ctrl-S in the terminal application: the saved network behaves like the one that was loaded, wherever the nodes are. *)
Theorem C97_saved : forall docs name info vars fs n ev scs other_digit scp a,
  (forall v, In v vars -> nv_factor v = None) -> net_new name info vars fs = Ok n -> map nf_for fs = map nv_name vars -> storable n ->
  solvable n -> showable n -> valid_observations n ev -> reached other_digit scp n ev a -> listening a = true ->
  exists d a' n', handle other_digit scs (Press KCtrlS) a = Ok a' /\ a_saved a' = Some d /\ fst (from_yaml (after_loading docs) d) = Ok n' /\ same_replies n n' /\
    map nv_pos (n_vars n') = map (fun t => (b_x (t_bounds t), b_y (t_bounds t))) (a_nodes a).
Proof.
  intros docs name info vars fs n ev scs od scp a Hnil E Ho Hs Hso Hsw Hev Hr Hli. destruct (storable_rows name info vars fs n Hnil E Ho Hs) as [Hrows Hne].
  destruct (C73_saved n ev scs od scp a Hso Hsw Hev Hr Hli) as (d & a' & E1 & E2 & E3). set (ps := map _ (a_nodes a)) in *.
  assert (HL : List.length ps = List.length (n_vars n)).
  { unfold ps. rewrite map_length. destruct (reached_ok n ev Hso Hsw Hev od scp a Hr) as (n1 & tables & [R1 R2 R3 R4 R5 R6 R7 R8]). pose proof (co_nodes _ _ (ao_core _ _ R6)) as HF. rewrite <- (sr_vars _ _ _ R2). clear - HF. induction HF; cbn; auto. }
  destruct (new_api name info vars fs Hnil) as (_ & _ & Hn). destruct (Hn n E) as (_ & _ & _ & _ & Hvs & _). assert (HLv : List.length ps = List.length vars). { rewrite HL. clear - Hvs. induction Hvs; simpl; auto. }
  destruct (new_moved name info vars fs n ps Hnil E Ho Hrows HLv) as (M1 & M2 & M3 & M4).
  destruct (reload_bare name info (moved vars ps) fs _ M1 M4 M2 M3 (after_loading docs) (placed n ps) (after_loading_like docs)) as (doc & n' & F1 & F2 & F3 & _ & F4).
  { unfold placed. fold (moved (n_vars n) ps). repeat split. cbn [n_factors]. clear. induction (n_factors n); constructor; auto. repeat split. } { exact Hne. }
  assert (doc = d) by congruence. subst doc. exists d, a', n'. split; auto. split; auto. split; auto. split.
  - apply bare_replies. rewrite F4. unfold placed, bare. cbn [n_vars n_factors n_policies n_ve n_names n_tui]. f_equal. clear - HL. clearbody ps. revert ps HL. induction (n_vars n) as [|v l IH]; intros [|p ps] HL; cbn; try discriminate HL; auto. f_equal. apply IH. auto.
  - assert (G : map nv_pos (n_vars n') = map nv_pos (n_vars (placed n ps))). { clear - F3. induction F3 as [|v v' l l' (_ & _ & _ & H) _ IH]; cbn; auto. rewrite H, IH. auto. }
    rewrite G. unfold placed. cbn [n_vars]. clear - HL. clearbody ps. revert ps HL. induction (n_vars n) as [|v l IH]; intros [|p ps] HL; cbn; try discriminate HL; auto. f_equal. apply IH. auto.
Qed.

(** bbn inference prints the same lines for both files. *)
Theorem C97_printed : forall parse_float D read_file yaml_of xml_of scs scp path path' texts n doc data,
  by_position scp -> fst (from_file parse_float D read_file yaml_of xml_of factors path) = Ok n -> storable n -> showable n -> to_yaml n = Ok doc ->
  ascii_only path' -> has_extension path' "yml" -> read_file path' = Some data -> yaml_of data = Some doc ->
  inference_command parse_float D read_file yaml_of xml_of scs scp path' texts = inference_command parse_float D read_file yaml_of xml_of scs scp path texts.
Proof.
  intros pf D rf yo xo scs scp path path' texts n doc data Hp E Hs Hsw Ed Ha Hx Hd Hy. destruct (from_file_built pf D rf yo xo factors path n (after_loading_like []) E) as (name & info & vars & fs & Hnil & Hnew & _ & Ho).
  destruct (storable_rows name info vars fs n Hnil Hnew Ho Hs) as [Hr Hne].
  destruct (reload_bare name info vars fs n Hnil Hnew Ho Hr factors n (after_loading_like [])) as (doc' & n' & E1 & E2 & E3 & E4 & E5); auto.
  { repeat split. clear. induction (n_factors n); constructor; auto. repeat split. }
  assert (doc' = doc) by congruence. subst doc'. unfold inference_command. rewrite E.
  destruct (C81_formats pf D rf yo xo factors path' "yml" data Ha Hx Hd) as [H _]. rewrite H, Hy, E2.
  2:{ unfold any_case. clear. induction (chars "yml"); constructor; auto. }
  cbn [gbind]. rewrite (same_inference n n' E5 scs scp texts Hp Hsw (same_showable n n' E5 Hsw E4 E3)). apply gbind_ext. intros [ev res]. f_equal.
  clear - E3. induction E3 as [|v v' l l' (S1 & S2 & S3 & _) _ IH]; auto. cbn [flat_map]. rewrite IH. f_equal. unfold inference_lines, is_utility. rewrite S1, S2, S3. auto.
Qed.

(** The umbrella network, the trip network of Props_Train and its training meet the hypotheses. *)
Definition storable_b (n : network xnum) : bool :=
  forallb (fun v => negb (zlen (nv_outcomes v) =? 0) && match factor_of n v with
    | Some f => (Nat.modulo (List.length (slice_of (nf_table f))) (List.length (nv_outcomes v)) =? 0)%nat && match nf_table f with Some [] => false | _ => true end
    | None => false end) (n_vars n).
Lemma storable_b_sound n : storable_b n = true -> storable n.
Proof.
  intros H v Hv. unfold storable_b in H. rewrite forallb_forall in H. specialize (H v Hv). apply andb_true_iff in H. destruct H as [H1 H2]. destruct (nv_outcomes v) as [|o l] eqn:Eo; [discriminate H1|]. split; [discriminate|].
  destruct (factor_of n v) as [f|]; [|discriminate H2]. exists f. split; auto. apply andb_true_iff in H2. destruct H2 as [H2 H3]. split.
  - apply Nat.eqb_eq in H2. apply Nat.mod_divides in H2; [|discriminate]. destruct H2 as (c & Hc). exists c. lia.
  - intros Q. rewrite Q in H3. discriminate H3.
Qed.
Example C97_hypotheses : storable umbrella_file /\ storable trip_file /\ showable umbrella_file /\ trainable trip_file /\ plain_parents trip_file /\ load "nets/umbrella.v2.YML" = Ok umbrella_file /\ load "trip.yml" = Ok trip_file.
Proof.
  split; [apply storable_b_sound; vm_compute; reflexivity|]. split; [apply storable_b_sound; vm_compute; reflexivity|].
  destruct C79_example as (E1 & _ & E2 & _). destruct C80_example as (E3 & E4 & E5 & _). repeat (split; auto).
Qed.
Example C97_orders : by_position sched_id /\ by_position sched_rev.
Proof. split; intros t X Y h l; cbn [sched_id sched_rev shuffle]; auto. rewrite map_rev. auto. Qed.
(** A query that follows policies, before and after saving. *)
Definition reread (n : network xnum) : network xnum := match to_yaml n with Ok d => match fst (from_yaml factors d) with Ok n' => n' | _ => n end | _ => n end.
Definition some_calls : list (call (A := xnum)) := [CSolvePolicies sched_rev true; CSolveQuery sched_id [] ["weather"] false].
Example C97_example :
  shown_answer (net_solve_query sched_id (SpecNet.after (reread umbrella_file) some_calls) [] ["umbrella"] false) = Some [("umbrella", [SFin (1#4); SFin (3#4)])] /\
  shown_answer (net_solve_query sched_id (SpecNet.after umbrella_file some_calls) [] ["umbrella"] false) = Some [("umbrella", [SFin (1#4); SFin (3#4)])].
Proof. split; vm_compute; reflexivity. Qed.

Print Assumptions C97_reloaded.
Print Assumptions C97_files.
Print Assumptions C97_trained.
Print Assumptions C97_saved.
Print Assumptions C97_printed.
