(** Property C131: it does not matter in which format a network is given (yml.go, xml.go, cmd/).
    Specification vocabulary: SpecFormats.v, with SpecDoc.v and SpecReload.v. *)
From Coq Require Import ZArith QArith Qcanon List Bool String Ascii Lia.
From Verif Require Import Num GoBase GoFacts VarModel VEModel XnumFacts NetModel SpecNet NetNew NetCheck TextModel LogicModel LogicShape DocModel SpecDoc TextFacts DocFacts DocXml
  CliModel SpecCli TuiModel SpecTui SpecApp Props_VE Props_Net Props_Doc Props_Cli Props_Tui ShellModel SpecShell ShellFacts SpecReload NetBare NetReload ShellReload Props_Shell SpecFormats NetFormats.
Import ListNotations.
Open Scope string_scope.
Open Scope list_scope.
Open Scope Z_scope.

(** ** C131: YAML and XML *)

(** A YAML and an XML document that say the same give the same network, except for its description and the colors of the nodes,
    which XML can't tell: no call, after any calls, can tell the networks apart, and they are written as the same document. If
    one of the documents is not accepted, the other one is not accepted for the same reason. *)
Theorem C131_formats : forall {A} {N : NumOps A} parse_float docs (y : ydoc A) x, same_document parse_float y x ->
  (exists n n', fst (from_yaml (after_loading docs) y) = Ok n /\ from_xml parse_float x = Ok n' /\ same_replies n n' /\
     n_name n' = n_name n /\ Forall2 same_but_color (n_vars n) (n_vars n') /\ n_factors n' = n_factors n /\ to_yaml n' = to_yaml n) \/
  (exists e, fst (from_yaml (after_loading docs) y) = Err e /\ from_xml parse_float x = Err e).
Proof.
  intros A N pf docs y x H. destruct (same_formats pf (after_loading docs) y x (after_loading_like docs) H) as [E NP]. rewrite E in *.
  destruct (fst (from_yaml (after_loading docs) y)) as [n|e|p] eqn:Ey; cbn [gmap] in *; [left|right; eauto|exfalso; apply (NP p); auto].
  exists n, (plain n). split; auto. split; auto. split; [apply bare_replies, plain_bare|].
  - unfold from_yaml in Ey. destruct (yaml_nodes (after_loading docs) (yd_vars y)) as [l reg']. cbn [fst] in Ey. destruct l as [l| |]; try discriminate Ey. cbn [gbind] in Ey. eapply new_fresh; eauto.
  - split; [reflexivity|]. split; [|split; [reflexivity|]].
    + unfold plain; cbn [n_vars]. induction (n_vars n); constructor; auto. repeat split.
    + apply plain_written.
Qed.

Lemma uncolored_showable (n : network xnum) : n_names n = [] -> showable n -> showable (plain n).
Proof.
  intros E H. apply (same_showable n (plain n) (plain_bare n E) H).
  - intros v Hv. unfold plain in Hv; cbn [n_vars] in Hv. apply in_map_iff in Hv. destruct Hv as (w & <- & _). reflexivity.
  - unfold plain; cbn [n_vars]. induction (n_vars n); constructor; auto. repeat split.
Qed.
(** bbn inference prints the same lines for both files. *)
Theorem C131_printed : forall parse_float D read_file yaml_of xml_of scs scp path path' e' texts n data data' y x,
  by_position scp -> ascii_only path -> has_extension path "yml" -> read_file path = Some data -> yaml_of data = Some y ->
  ascii_only path' -> has_extension path' e' -> (e' = "xml" \/ e' = "bifxml") -> read_file path' = Some data' -> xml_of data' = Some x ->
  same_document parse_float y x -> fst (from_file parse_float D read_file yaml_of xml_of factors path) = Ok n -> showable n ->
  inference_command parse_float D read_file yaml_of xml_of scs scp path' texts = inference_command parse_float D read_file yaml_of xml_of scs scp path texts.
Proof.
  intros pf D rf yo xo scs scp path path' e' texts n data data' y x Hp Ha Hx Hd Hy Ha' Hx' He Hd' Hy' H E Hs.
  assert (Any : forall s, any_case s s). { intros s. unfold any_case. induction (chars s); constructor; auto. }
  destruct (C81_formats pf D rf yo xo factors path "yml" data Ha Hx Hd) as [F _]. destruct (C81_formats pf D rf yo xo factors path' e' data' Ha' Hx' Hd') as [_ F'].
  rewrite Hy in F. rewrite Hy' in F'. specialize (F (Any _)). assert (F1 := F' ltac:(destruct He; subst; auto)). clear F'. rewrite F in E.
  destruct (same_formats pf factors y x (after_loading_like []) H) as [Q _]. unfold inference_command. rewrite F, F1. cbn [fst]. rewrite Q, E. cbn [gmap gbind].
  assert (Hn : n_names n = []).
  { unfold from_yaml in E. destruct (yaml_nodes factors (yd_vars y)) as [l reg']. cbn [fst] in E. destruct l as [l| |]; try discriminate E. cbn [gbind] in E. eapply new_fresh; eauto. }
  rewrite (same_inference n (plain n) (plain_bare n Hn) scs scp texts Hp Hs (uncolored_showable n Hn Hs)). apply gbind_ext. intros [ev res]. f_equal.
  unfold plain; cbn [n_vars]. clear. induction (n_vars n) as [|v l IH]; auto. cbn [flat_map map]. rewrite IH. reflexivity.
Qed.

(** bbn train writes the same document for both files, or fails in the same way. *)
Theorem C131_trained : forall {A} {N : NumOps A} parse_float D read_file yaml_of xml_of csv_of path path' e' dataFile delim noData data data' (y : ydoc A) x,
  ascii_only path -> has_extension path "yml" -> read_file path = Some data -> yaml_of data = Some y ->
  ascii_only path' -> has_extension path' e' -> (e' = "xml" \/ e' = "bifxml") -> read_file path' = Some data' -> xml_of data' = Some x ->
  same_document parse_float y x ->
  train_command parse_float D read_file yaml_of xml_of csv_of path' dataFile delim noData = train_command parse_float D read_file yaml_of xml_of csv_of path dataFile delim noData.
Proof.
  intros A N pf D rf yo xo csv path path' e' dataFile delim noData data data' y x Ha Hx Hd Hy Ha' Hx' He Hd' Hy' H.
  assert (Any : forall s, any_case s s). { intros s. unfold any_case. induction (chars s); constructor; auto. }
  destruct (C81_formats pf D rf yo xo factors path "yml" data Ha Hx Hd) as [F _]. destruct (C81_formats pf D rf yo xo factors path' e' data' Ha' Hx' Hd') as [_ F'].
  rewrite Hy in F. rewrite Hy' in F'. specialize (F (Any _)). assert (F1 := F' ltac:(destruct He; subst; auto)). clear F'.
  destruct (same_formats pf factors y x (after_loading_like []) H) as [Q _]. unfold train_command. destruct (runes_of delim) as [|r [|r' l]]; auto. rewrite F, F1. cbn [fst]. rewrite Q, bind_gmap.
  apply gbind_ext. intros n. destruct (csv dataFile r); auto. rewrite plain_train. destruct (train_csv pf n l noData) as [t res]. cbn [fst snd]. apply gbind_ext. intros []. apply plain_written.
Qed.

(** Documents with a logic operator, a color, a position and two definitions for a variable. *)
Definition nums (l : list Z) : list xnum := map nofint l.
Definition yaml_form : ydoc xnum := mkYDoc "logic" "info" [mkYVar "a" [] "nature" ["yes"; "no"] (1, 2) "red" "" [nums [1; 3]];
  mkYVar "b" ["a"] "" ["yes"; "no"] (0, 0) "" "" [nums [1; 1]; nums [2; 3]]; mkYVar "c" ["a"; "b"] "" ["yes"; "no"] (0, 0) "" "AND" []].
Definition xml_form : xdoc := mkXDoc "logic" [mkXVar "a" "" ["yes"; "no"] ["position = (2, 24)"; "color = blue"]; mkXVar "b" "nature" ["yes"; "no"] []; mkXVar "c" "nature" ["yes"; "no"] []]
  [mkXDef "b" ["a"] "1 1  2 3"; mkXDef "c" [] "7 7"; mkXDef "a" [] (" 1" ++ String "010" "3 ")%string; mkXDef "c" ["a"; "b"] "1 0 0 1 0 1 0 1"].
Definition the_answer (r : gores (network xnum)) : option (list (string * list shown)) :=
  match r with Ok n => shown_answer (net_solve_query sched_id n [("c", "no")] ["a"] false) | _ => None end.
Example C131_example : same_document int_parse yaml_form xml_form /\
  the_answer (fst (from_yaml factors yaml_form)) = the_answer (from_xml int_parse xml_form) /\ the_answer (from_xml int_parse xml_form) = Some [("a", [SFin (1#7); SFin (6#7)])].
Proof.
  split; [|split; vm_compute; reflexivity]. split; [reflexivity|]. constructor; [|constructor; [|constructor; [|constructor]]].
  - constructor; try reflexivity.
    + exists Chance. split; simpl; auto.
    + destruct (parse_position_cases (x_props (mkXVar "a" "" ["yes"; "no"] ["position = (2, 24)"; "color = blue"]))) as [(p & E & P)|(e & prop & E & _)]; vm_compute in E; [|discriminate E]. injection E as <-. exact P.
    + exists (mkXDef "a" [] (" 1" ++ String "010" "3 ")%string), (Some (nums [1; 3])). split; [|split; [reflexivity|split; [|split; [|split; [discriminate|exists 1%nat; reflexivity]]]]].
      * exists [mkXDef "b" ["a"] "1 1  2 3"; mkXDef "c" [] "7 7"], [mkXDef "c" ["a"; "b"] "1 0 0 1 0 1 0 1"]. split; [reflexivity|]. split; [reflexivity|]. intros e [<-|[]]. discriminate.
      * right; left. split; [reflexivity|]. split; [discriminate|]. reflexivity.
      * repeat constructor.
  - constructor; try reflexivity.
    + exists Chance. split; simpl; auto.
    + constructor.
    + exists (mkXDef "b" ["a"] "1 1  2 3"), (Some (nums [1; 1; 2; 3])). split; [|split; [reflexivity|split; [|split; [|split; [discriminate|exists 2%nat; reflexivity]]]]].
      * eexists [], _. split; [reflexivity|]. split; [reflexivity|]. intros e [<-|[<-|[<-|[]]]]; discriminate.
      * right; left. split; [reflexivity|]. split; [discriminate|]. reflexivity.
      * repeat constructor.
  - constructor; try reflexivity.
    + exists Chance. split; simpl; auto.
    + constructor.
    + exists (mkXDef "c" ["a"; "b"] "1 0 0 1 0 1 0 1"), (Some (nums [1; 0; 0; 1; 0; 1; 0; 1])). split; [|split; [reflexivity|split; [|split; [|split; [discriminate|exists 4%nat; reflexivity]]]]].
      * eexists (_ :: _ :: _ :: []), []. split; [reflexivity|]. split; [reflexivity|]. intros e [].
      * right; right. split; [discriminate|]. split; [reflexivity|]. exists "and", []. split; [exists "AND", []; split; [apply parts_by_split; reflexivity|split; [reflexivity|constructor]]|]. split; [simpl; auto|].
        reflexivity.
      * repeat constructor.
Qed.
(** Both documents as files: bbn inference prints the same. *)
Definition two_files (path : string) : option (ydoc xnum + xdoc) :=
  if String.eqb path "nets/logic.yml" then Some (inl yaml_form) else if String.eqb path "nets/logic.bifxml" then Some (inr xml_form) else None.
Definition as_yaml (d : ydoc xnum + xdoc) : option (ydoc xnum) := match d with inl y => Some y | inr _ => None end.
Definition as_xml (d : ydoc xnum + xdoc) : option xdoc := match d with inl _ => None | inr x => Some x end.
Definition printed (path : string) : gores (list (list Z)) := inference_command int_parse _ two_files as_yaml as_xml (fun _ => sched_id) sched_rev path ["c=no"].
Definition logic_file : network xnum := match fst (from_yaml factors yaml_form) with Ok n => n | _ => show end.
Example C131_files : by_position sched_rev /\ ascii_only "nets/logic.yml" /\ has_extension "nets/logic.yml" "yml" /\ ascii_only "nets/logic.bifxml" /\ has_extension "nets/logic.bifxml" "bifxml" /\
  fst (from_file int_parse _ two_files as_yaml as_xml factors "nets/logic.yml") = Ok logic_file /\ showable logic_file /\
  match printed "nets/logic.bifxml" with Ok l => nth_error l 1 = Some (runes_of "                             a    14.286%    85.714%") | _ => False end.
Proof.
  split; [intros t X Y h l; cbn [sched_rev shuffle]; rewrite map_rev; auto|]. split; [apply ascii_b; reflexivity|].
  split; [exists "nets/logic"; split; [reflexivity|]; split; vm_compute; intuition discriminate|]. split; [apply ascii_b; reflexivity|].
  split; [exists "nets/logic"; split; [reflexivity|]; split; vm_compute; intuition discriminate|]. split.
  - assert (H : is_ok (fst (from_yaml factors yaml_form)) = true) by (vm_compute; reflexivity). change (fst (from_file int_parse _ two_files as_yaml as_xml factors "nets/logic.yml")) with (fst (from_yaml factors yaml_form)).
    unfold logic_file. destruct (fst (from_yaml factors yaml_form)); auto; discriminate H.
  - split; [apply showable_b_sound; vm_compute; reflexivity|]. vm_compute. reflexivity.
Qed.
(** Training with both files. *)
Definition samples_file (path : string) (delim : Z) : option (list (list string)) :=
  if String.eqb path "abc.csv" && (delim =? 44) then Some [["a"; "b"; "c"]; ["yes"; "yes"; "yes"]; ["yes"; "no"; "no"]; ["no"; "yes"; "no"]; ["no"; "no"; "no"]; ["no"; "no"; "no"]] else None.
Definition learned (path : string) : option (list (string * list (list shown))) :=
  match train_command int_parse _ two_files as_yaml as_xml samples_file path "abc.csv" "," "" with
  | Ok d => Some (map (fun v => (y_name v, map (map xshow) (y_table v))) (yd_vars d)) | _ => None end.
Example C131_learned : learned "nets/logic.bifxml" = learned "nets/logic.yml" /\ learned "nets/logic.yml" =
  Some [("a", [[SFin (2#5); SFin (3#5)]]); ("b", [[SFin (1#2); SFin (1#2)]; [SFin (1#3); SFin (2#3)]]);
        ("c", [[SFin 1; SFin 0]; [SFin 0; SFin 1]; [SFin 0; SFin 1]; [SFin 0; SFin 1]])].
Proof. split; vm_compute; reflexivity. Qed.

Print Assumptions C131_formats.
Print Assumptions C131_printed.
Print Assumptions C131_trained.
