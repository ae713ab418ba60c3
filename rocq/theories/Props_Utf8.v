(** Property C99: names and delimiters with any characters (cmd/bbn, cmd/bbni, internal/tui).
    Specification vocabulary: SpecUtf8.v, with SpecShell.v and SpecApp.v. *)
From Coq Require Import ZArith QArith Qcanon List Bool String Ascii Lia ZifyBool.
From Verif Require Import Num GoBase GoFacts VarModel VEModel SpecVE XnumFacts NetModel SpecNet NetNew SpecNetPolicy TextModel TrainModel DocModel
  CliModel SpecCli TuiModel SpecTui SpecApp SpecScreen TuiGrid TuiDraw TuiApp TuiStart NetCheck ShellModel SpecShell ShellFacts LogicModel TuiCanvas TuiSession TuiPicture TuiShown Props_VE Props_Net Props_Tui Props_Shell Props_Screen SpecUtf8 Utf8.
Import ListNotations.
Open Scope string_scope.
Open Scope list_scope.
Open Scope Z_scope.

(** ** C99: text is taken character by character *)

(** Each string is one text: it reads whole characters, and U+FFFD for each byte where none starts. *)
Theorem C99_text : forall s, exists cs, spells s cs /\ forall cs', spells s cs' -> cs' = cs.
Proof.
  intros s. exists (runes_of s). split; [apply spells_runes; auto|]. intros cs' H. apply spells_runes in H. auto.
Qed.

(** The encoding of some characters is read as these characters. *)
Theorem C99_encoded : forall s cs, Forall character cs -> bytes_of s = flat_map encode cs -> spells s cs.
Proof. exact spelled. Qed.

(** The delimiter of bbn train and bbni is a single character, of one or more bytes; this character separates the fields. *)
Theorem C99_delimiter : forall parse_float D read_file yaml_of xml_of csv_of delim cs, spells delim cs ->
  (List.length cs <> 1%nat ->
    (forall netFile dataFile noData, exists e, train_command parse_float D read_file yaml_of xml_of csv_of netFile dataFile delim noData = Err e) /\
    (forall scs scp path texts training noData, exists e, bbni_command parse_float D read_file yaml_of xml_of csv_of scs scp path texts training noData delim = Err e)) /\
  (forall netFile dataFile noData doc, train_command parse_float D read_file yaml_of xml_of csv_of netFile dataFile delim noData = Ok doc ->
    exists c lines, cs = [c] /\ csv_of dataFile c = Some lines).
Proof.
  intros pf D rf yo xo csv delim cs Hs. apply spells_runes in Hs.
  assert (Hno : List.length cs <> 1%nat -> forall r, ~ single_rune delim r).
  { intros Hl r Hr. unfold single_rune in Hr. rewrite Hr in Hs. subst cs. apply Hl. auto. }
  split; [intros Hl; split|]; intros.
  - apply C80_errors. left. auto.
  - apply C82_errors. right. left. auto.
  - destruct (C80_written pf D rf yo xo csv _ _ _ _ _ H) as (r & net & lines & trained & Hr & _ & Hc & _).
    unfold single_rune in Hr. exists r, lines. split; auto. congruence.
Qed.

(** bbn inference prints aligned columns if the names have at most 30 characters and the outcomes at most 10, however many bytes. *)
Theorem C99_columns : forall parse_float D read_file yaml_of xml_of scs scp path texts ev n,
  fst (from_file parse_float D read_file yaml_of xml_of factors path) = Ok n -> solvable n -> showable n -> parse_evidence texts = Ok ev -> valid_observations n ev ->
  exists blocks, inference_command parse_float D read_file yaml_of xml_of scs scp path texts = Ok (List.concat blocks) /\
    Forall2 (fun v lines => nv_type v <> Utility -> (forall cs, spells (nv_name v) cs -> zlen cs <= 30) ->
      (forall o cs, In o (nv_outcomes v) -> spells o cs -> zlen cs <= 10) ->
      exists l1 l2, lines = [l1; l2] /\ zlen l1 = 30 + 11 * zlen (nv_outcomes v) /\
        zlen l2 = zlen l1 + match sget_map ev (nv_name v) with Some _ => 3 | None => 0 end) (n_vars n) blocks.
Proof.
  intros pf D rf yo xo scs scp path texts ev n H1 H2 H3 H4 H5.
  destruct (C79_columns pf D rf yo xo (fun _ _ => None) scs scp path texts ev n H1 H2 H3 H4 H5) as (blocks & E & H). exists blocks. split; auto.
  clear - H. induction H as [|v lines vs bs Hv H IH]; constructor; auto. intros Ht Hn Ho. apply Hv; auto.
  - apply Hn. apply spells_runes. auto.
  - intros o Hin. apply (Ho o); auto. apply spells_runes. auto.
Qed.

(** The title of a chance node on the screen: the cells after the border show the characters of its name one by one, and spaces after them.
    A node is as wide as its name, up to 48 characters. *)
Theorem C99_title : forall n ev other_digit scp a i v t k cs, solvable n -> showable n -> valid_observations n ev -> small_utilities n -> reached other_digit scp n ev a ->
  nth_error (n_vars n) i = Some v -> nth_error (a_nodes a) i = Some t -> nv_type v = Chance -> spells (nv_name v) cs -> 0 <= k < b_w (t_bounds t) - 4 ->
  let x := b_x (t_bounds t) + 2 + k in let y := b_y (t_bounds t) + 1 in
  (forall j u, (i < j)%nat -> nth_error (a_nodes a) j = Some u -> inside (t_bounds u) x y = false) ->
  px (a_canvas a) y x = Ok (nth (Z.to_nat k) cs 32) /\ Z.min 48 (zlen cs) <= b_w (t_bounds t) - 4.
Proof.
  intros n ev od scp a i v t k cs Hso Hsw Hev Hs Hr Hv Ht Hty Hsp Hk x y Htop. apply spells_runes in Hsp.
  destruct (node_shown n ev Hso Hsw Hev od scp a i v t Hr Hs Hv Ht) as (_ & _ & _ & Hw0 & Hh0 & _).
  assert (Hh' : 3 <= box_height v) by (unfold box_height; rewrite Hty; pose proof (zlen_nonneg (nv_outcomes v)); lia).
  assert (Hin : inside (t_bounds t) x y = true) by (unfold inside; subst x y; lia).
  destruct (C74_pictures n ev od scp a i v t y x Hso Hsw Hev Hs Hr Hv Ht Hin Htop) as (n' & tables & _ & Hw & Hh & Hpx).
  rewrite Hpx, Hw in *. clear Hpx. split.
  - f_equal. unfold node_char. subst x y. set (w := box_width v) in *. set (h := box_height v) in *.
    replace (b_y (t_bounds t) + 1 - b_y (t_bounds t)) with 1 by lia.
    replace (b_x (t_bounds t) + 2 + k - b_x (t_bounds t)) with (2 + k) by lia.
    rewrite Hty, Hsp. cbv zeta.
    replace (1 =? 0) with false by lia. replace (1 =? h - 1) with false by lia. replace (2 + k =? 0) with false by lia.
    replace (2 + k =? w - 1) with false by lia. replace (2 + k <? w - 2) with true by lia. replace (1 =? 1) with true by lia. cbn [andb orb].
    unfold char_at. replace (2 + k - 2 <? 0) with false by lia. f_equal. f_equal. lia.
  - unfold box_width. rewrite Hsp. lia.
Qed.

(** A network with names of several bytes per character. *)
Definition accents : network xnum := built (net_new "météo" "" [at_ 0 0 (node Chance "température ≤ 0 °C" ["été"; "hiver"])]
  [cpt "température ≤ 0 °C" [] [1#4; 3#4]]).

Example C99_example : bytes_of "≤😀" = flat_map encode [8804; 128512] /\ Forall character [8804; 128512] /\
  bytes_of (String "195" (String "A" EmptyString)) = [195; 65] /\ runes_of (String "195" (String "A" EmptyString)) = [65533; 65] /\
  bytes_of "§" = [194; 167] /\ single_rune "§" 167 /\
  solvable accents /\ showable accents /\ small_utilities accents /\
  match canvas_of (after accents [] []) with _ :: l :: _ => firstn 20 l = runes_of "║ température ≤ 0 °C" | _ => False end.
Proof.
  split; [vm_compute; reflexivity|]. split; [repeat constructor; vm_compute; intuition discriminate|].
  do 3 (split; [vm_compute; reflexivity|]). split; [vm_compute; reflexivity|].
  split; [right; split; [reflexivity|]; split; [apply network_b_sound; vm_compute; reflexivity|]; split; [apply complete_b_sound; vm_compute; reflexivity|]; split; [apply nonnegative_b_sound; vm_compute; reflexivity|]; split; [|reflexivity]; apply plain_utilities_b_sound; vm_compute; reflexivity|].
  split; [apply showable_b_sound; vm_compute; reflexivity|]. split; [apply small_utilities_b_sound; vm_compute; reflexivity|].
  vm_compute. reflexivity.
Qed.

Print Assumptions C99_text.
Print Assumptions C99_encoded.
Print Assumptions C99_delimiter.
Print Assumptions C99_columns.
Print Assumptions C99_title.
