(** Properties C51-C53: networks from and to documents (yml.go, xml.go).
    Specification vocabulary: SpecDoc.v, SpecNet.v. *)
From Coq Require Import ZArith QArith Qcanon List Bool String Ascii Lia.
From Verif Require Import Num GoBase GoFacts VarModel NetModel SpecNet NetNew LogicModel LogicShape TextModel DocModel SpecDoc TextFacts DocFacts DocRound DocXml Props_VE Props_Net.
Import ListNotations.
Open Scope string_scope.
Open Scope list_scope.
Open Scope Z_scope.

(** The state of the shared operators after loading other documents *)
Definition after_loading {A} {N : NumOps A} (docs : list (ydoc A)) : list (string * lfactor A) :=
  fold_left (fun reg d => snd (from_yaml reg d)) docs factors.
Lemma yaml_nodes_like {A} {N : NumOps A} (l : list (yvar A)) : forall reg, like_new reg -> like_new (snd (yaml_nodes reg l)).
Proof.
  induction l as [|v l IH]; intros reg H; auto. cbn [yaml_nodes]. pose proof (yaml_node_like reg v H) as HL. destruct (yaml_node reg v) as [[x| |] reg1]; auto.
  specialize (IH reg1 HL). destruct (yaml_nodes reg1 l). auto.
Qed.
Lemma after_loading_like {A} {N : NumOps A} (docs : list (ydoc A)) : like_new (after_loading docs).
Proof.
  unfold after_loading. pose proof (like_new_start (A := A)) as H. revert H. generalize (factors (A := A)). induction docs as [|d docs IH]; intros reg H; auto. simpl. apply IH.
  unfold from_yaml. pose proof (yaml_nodes_like (yd_vars d) reg H). destruct (yaml_nodes reg (yd_vars d)). auto.
Qed.

(** ** C51: round trip through YAML *)

(** For every network made by New whose variables all have a factor with full rows: the document
    can be read again, and the result has the same name, variables, parents, tables and total
    utility; only Info and the colors are lost. *)
Theorem C51_round_trip_partial : forall {A} {N : NumOps A} docs name info vars (fs : list (nfactor A)) n,
  (forall v, In v vars -> nv_factor v = None) -> net_new name info vars fs = Ok n -> full_rows vars fs ->
  exists doc n', to_yaml n = Ok doc /\ fst (from_yaml (after_loading docs) doc) = Ok n' /\
    n_name n' = n_name n /\ n_tui n' = n_tui n /\ List.length (n_factors n') = List.length (n_vars n') /\
    Forall2 (fun v v' => same_but_color v v' /\ exists f f', factor_of n v = Some f /\ factor_of n' v' = Some f' /\ equal_factors f f') (n_vars n) (n_vars n') /\
    n_info n' = "" /\ (forall v', In v' (n_vars n') -> nv_color v' = "").
Proof. intros A N docs name info vars fs n Hnil E Hr. apply (round_trip name info vars fs n Hnil E Hr). apply after_loading_like. Qed.

(** The full statement is false: Info and colors are dropped. *)
Definition painted := [mkNVar "rain" Chance ["yes"; "no"] (3, 4) "red" None].
Definition painted_net : network xnum := built (net_new "weather" "about rain" painted [cpt "rain" [] [1#5; 4#5]]).
Theorem C51_info_and_colors_refuted : ~ (forall name info vars (fs : list (nfactor xnum)) n doc n',
  (forall v, In v vars -> nv_factor v = None) -> net_new name info vars fs = Ok n -> full_rows vars fs ->
  to_yaml n = Ok doc -> fst (from_yaml factors doc) = Ok n' -> n_info n' = n_info n) /\
  ~ (forall name info vars (fs : list (nfactor xnum)) n doc n',
  (forall v, In v vars -> nv_factor v = None) -> net_new name info vars fs = Ok n -> full_rows vars fs ->
  to_yaml n = Ok doc -> fst (from_yaml factors doc) = Ok n' -> map nv_color (n_vars n') = map nv_color (n_vars n)).
Proof.
  assert (H1 : forall v, In v painted -> nv_factor v = None) by (intros v [<-|[]]; reflexivity).
  assert (H2 : net_new "weather" "about rain" painted [cpt "rain" [] [1#5; 4#5]] = Ok painted_net) by reflexivity.
  assert (H3 : full_rows painted [cpt "rain" [] [1#5; 4#5]]).
  { intros v [<-|[]]. split; [discriminate|]. eexists. split; [reflexivity|]. exists 1%nat. reflexivity. }
  destruct (C51_round_trip_partial [] _ _ _ _ _ H1 H2 H3) as (doc & n' & E1 & E2 & _ & _ & _ & Hv & Hi & Hc). change (after_loading []) with (factors (A := xnum)) in E2. split.
  - intros F. specialize (F _ _ _ _ _ doc n' H1 H2 H3 E1 E2). rewrite Hi in F. discriminate.
  - intros F. specialize (F _ _ _ _ _ doc n' H1 H2 H3 E1 E2). assert (Hl : forall c, In c (map nv_color (n_vars n')) -> c = ""). { intros c Hcin. apply in_map_iff in Hcin. destruct Hcin as (v & <- & Hv'). auto. }
    rewrite F in Hl. specialize (Hl "red" (or_introl eq_refl)). discriminate.
Qed.

(** The umbrella network (chance, decision and utility nodes) meets the hypotheses. *)
Example C51_example : full_rows umb_vars umb_factors /\ (forall v, In v umb_vars -> nv_factor v = None) /\
  match to_yaml umb with Ok d => map (fun v => (y_name v, y_type v, y_given v, map (map xshow) (y_table v))) (yd_vars d) | _ => [] end =
    [("weather", "", [], [[SFin 70; SFin 30]]); ("forecast", "", ["weather"], [[SFin 70; SFin 20; SFin 10]; [SFin 15; SFin 25; SFin 60]]);
     ("umbrella", "decision", ["forecast"], []); ("mood", "utility", ["weather"; "umbrella"], [[SFin 20]; [SFin 100]; [SFin 70]; [SFin 0]])].
Proof.
  split; [|split; [|vm_compute; reflexivity]].
  - intros v H. simpl in H. repeat (destruct H as [<-|H]; [split; [discriminate|]; eexists; split; [reflexivity|]; first [exists 0%nat; reflexivity|exists 1%nat; reflexivity|exists 2%nat; reflexivity|exists 4%nat; reflexivity]|]). destruct H.
  - intros v H. simpl in H. repeat (destruct H as [<-|H]; [reflexivity|]). destruct H.
Qed.

(** ** C52: reading YAML documents *)

(** If all nodes are correct, New gets their variables and factors, where the table of a factor
    is the flattened table or the table of the logic operator. *)
Theorem C52_valid_documents : forall {A} {N : NumOps A} docs d ps, Forall2 (node_input (A := A)) (yd_vars d) ps ->
  fst (from_yaml (after_loading docs) d) = net_new (yd_name d) (yd_info d) (map fst ps) (map snd ps).
Proof.
  intros A N docs d ps H. unfold from_yaml. pose proof (yaml_nodes_ok _ _ H _ (after_loading_like docs)) as E. destruct (yaml_nodes (after_loading docs) (yd_vars d)) as [xs reg]. cbn [fst] in *. subst xs. reflexivity.
Qed.

(** Mistakes give an error. *)
Theorem C52_mistakes : forall {A} {N : NumOps A} docs d l1 ps v l2, yd_vars d = l1 ++ v :: l2 -> Forall2 (node_input (A := A)) l1 ps -> faulty v ->
  exists e, fst (from_yaml (after_loading docs) d) = Err e.
Proof.
  intros A N docs d l1 ps v l2 Ed H F. unfold from_yaml. rewrite Ed. destruct (yaml_nodes_stop l1 ps v l2 H _ (after_loading_like docs)) as (reg' & HL & Hm).
  destruct (faulty_error reg' v HL F) as (e & E). rewrite E in Hm. destruct (yaml_nodes (after_loading docs) (l1 ++ v :: l2)) as [xs reg]. cbn [fst] in *. subst xs. simpl. eauto.
Qed.

(** There is no other case, except operators that panic because of their arguments. *)
Theorem C52_all_cases_partial : forall {A} {N : NumOps A} (d : ydoc A),
  (exists ps, Forall2 node_input (yd_vars d) ps) \/
  (exists l1 ps v l2, yd_vars d = l1 ++ v :: l2 /\ Forall2 node_input l1 ps /\ faulty v) \/
  (exists l1 ps v l2, yd_vars d = l1 ++ v :: l2 /\ Forall2 node_input l1 ps /\ crashing v /\
     forall docs, exists p, fst (from_yaml (after_loading docs) d) = Panic p).
Proof.
  intros A N d. destruct (yaml_split (yd_vars d)) as [H|(l1 & ps & v & l2 & E & H & [F|F])]; auto.
  - right. left. exists l1, ps, v, l2. auto.
  - right. right. exists l1, ps, v, l2. split; auto. split; auto. split; auto. intros docs. unfold from_yaml. rewrite E. destruct (yaml_nodes_stop l1 ps v l2 H _ (after_loading_like docs)) as (reg' & HL & Hm).
    destruct (crashing_panics reg' v HL F) as (p & Ep). rewrite Ep in Hm. destruct (yaml_nodes (after_loading docs) (l1 ++ v :: l2)) as [xs reg]. cbn [fst] in *. subst xs. simpl. eauto.
Qed.
(** Such operators exist: the property's "otherwise builds the factor" is false of them. *)
Definition crash_doc : ydoc xnum := mkYDoc "crash" "" [mkYVar "day" [] "" ["mon"; "tue"] (0, 0) "" "" [lit [1#2; 1#2]];
  mkYVar "wed" ["day"] "" ["yes"; "no"] (0, 0) "" "outcome-is 2 2" []].
Theorem C52_never_panics_refuted : exists d : ydoc xnum, exists p, fst (from_yaml factors d) = Panic p.
Proof. exists crash_doc, PIndex. vm_compute. reflexivity. Qed.

(** Operators are written in any case; text without special characters is changed letter by letter. *)
Theorem C52_any_case : forall s, (forall c, In c (chars s) -> (nat_of_ascii c < 128)%nat) -> chars (to_lower s) = map lower_char (chars s).
Proof.
  intros s. assert (G : forall n s, (String.length s <= n)%nat -> (forall c, In c (chars s) -> (nat_of_ascii c < 128)%nat) -> chars (to_lower s) = map lower_char (chars s)).
  { clear s. induction n as [|n IH]; intros s Hn H; destruct s as [|c1 s]; auto; simpl in Hn; [lia|]. assert (Hc : (nat_of_ascii c1 < 128)%nat) by (apply H; simpl; auto).
    assert (Hr : chars (to_lower s) = map lower_char (chars s)) by (apply IH; [lia|intros c Hc'; apply H; simpl; auto]).
    assert (E : to_lower (String c1 s) = String (lower_char c1) (to_lower s)).
    { destruct s as [|c2 s]; auto. cbn [to_lower]. destruct (Ascii.eqb_spec c1 "196") as [->|_]; [change (nat_of_ascii "196") with 196%nat in Hc; lia|]. cbn [andb].
      destruct s as [|c3 s]; auto. destruct (Ascii.eqb_spec c1 "226") as [->|_]; [change (nat_of_ascii "226") with 226%nat in Hc; lia|]. auto. }
    rewrite E. simpl. rewrite Hr. auto. }
  apply (G (String.length s)). auto.
Qed.

(** Capital letters become small ones, other characters stay. *)
Theorem C52_letters : (forall i, (i < 26)%nat -> lower_char (ascii_of_nat (65 + i)) = ascii_of_nat (97 + i)) /\
  forall c, (forall i, (i < 26)%nat -> c <> ascii_of_nat (65 + i)) -> lower_char c = c.
Proof.
  split.
  - intros i Hi. do 26 (destruct i as [|i]; [reflexivity|]). lia.
  - intros c H. unfold lower_char. destruct ((65 <=? nat_of_ascii c) && (nat_of_ascii c <=? 90))%nat eqn:E; auto. exfalso.
    apply andb_true_iff in E. rewrite !Nat.leb_le in E. apply (H (nat_of_ascii c - 65)%nat); [lia|]. replace (65 + (nat_of_ascii c - 65))%nat with (nat_of_ascii c) by lia. symmetry. apply ascii_nat_embedding.
Qed.

(** A correct document with an operator in upper case and one with arguments, and mistakes. *)
Definition logic_doc : ydoc xnum := mkYDoc "logic" "info" [mkYVar "a" [] "nature" ["yes"; "no"] (1, 2) "red" "" [lit [1#2; 1#2]]; mkYVar "b" [] "" ["yes"; "no"] (0, 0) "" "" [lit [1#4; 3#4]];
  mkYVar "c" ["a"; "b"] "" ["yes"; "no"] (0, 0) "" "AND" []; mkYVar "d" ["a"; "b"] "" ["yes"; "no"] (0, 0) "" "count-is +1" []].
Lemma parts_by_split sep s ps : split sep s = ps -> parts_of sep s ps.
Proof. intros <-. apply split_parts. Qed.
Example C52_example : (exists ps, Forall2 node_input (yd_vars logic_doc) ps) /\
  match fst (from_yaml factors logic_doc) with Ok n => map (fun f => option_map (map xshow) (nf_table f)) (n_factors n) | _ => [] end =
    [Some [SFin (1#2); SFin (1#2)]; Some [SFin (1#4); SFin (3#4)]; Some [SFin 1; SFin 0; SFin 0; SFin 1; SFin 0; SFin 1; SFin 0; SFin 1];
     Some [SFin 0; SFin 1; SFin 1; SFin 0; SFin 1; SFin 0; SFin 0; SFin 1]] /\
  faulty (A := xnum) (mkYVar "a" [] "nature" ["yes"; "no"] (1, 2) "" "and" [lit [1#2; 1#2]]) /\
  faulty (A := xnum) (mkYVar "a" [] "nature" ["yes"; "no"] (1, 2) "" "nand" []) /\
  faulty (A := xnum) (mkYVar "a" ["b"] "nature" ["yes"; "no"] (1, 2) "" "count-is 1x" []) /\
  faulty (A := xnum) (mkYVar "a" ["b"] "nature" ["yes"; "no"] (1, 2) "" "count-is 1 2" []) /\
  faulty (A := xnum) (mkYVar "a" [] "chance" ["yes"; "no"] (1, 2) "" "" [lit [1#2; 1#2]]).
Proof.
  split; [|split; [vm_compute; reflexivity|]].
  - destruct (yaml_split (yd_vars logic_doc)) as [H|(l1 & ps & v & l2 & E & H & F)]; auto. exfalso.
    assert (Hok : match fst (yaml_nodes factors (yd_vars logic_doc)) with Ok _ => true | _ => false end = true) by (vm_compute; reflexivity).
    destruct (yaml_nodes_stop l1 ps v l2 H _ (like_new_start (A := xnum))) as (reg' & HL & Hm). rewrite <- E in Hm.
    destruct F as [F|F]; [destruct (faulty_error reg' v HL F) as (e & Ee)|destruct (crashing_panics reg' v HL F) as (e & Ee)]; rewrite Ee in Hm; rewrite Hm in Hok; discriminate.
  - split; [|split; [|split; [|split]]].
    + apply table_and_logic; discriminate.
    + apply (bad_operator _ "nand" []); [discriminate|apply parts_by_split; reflexivity|]. simpl. intuition discriminate.
    + apply (bad_number _ "count-is" ["1x"] "1x"); [discriminate|apply parts_by_split; reflexivity|simpl; auto|]. apply atoi_err. eexists. reflexivity.
    + apply (operator_error _ "count-is" [1; 2] (EMsg "logic operator expects another number of arguments")); [discriminate| |vm_compute; reflexivity].
      exists "count-is", ["1"; "2"]. split; [apply parts_by_split; reflexivity|]. split; [reflexivity|]. repeat constructor; apply atoi_ok; reflexivity.
    + apply bad_type. apply type_unknown. reflexivity.
Qed.

(** ** C53: reading XML documents *)

(** [parse_float] stands for strconv.ParseFloat; the theorems hold for every such function. *)
Theorem C53_valid_documents : forall {A} {N : NumOps A} parse_float d ps, Forall2 (xml_input (A := A) parse_float d) (xd_vars d) ps ->
  from_xml parse_float d = net_new (xd_name d) "" (map fst ps) (map snd ps) /\ forall p, from_xml parse_float d <> Panic p.
Proof.
  intros A N pf d ps H. assert (E : from_xml pf d = net_new (xd_name d) "" (map fst ps) (map snd ps)).
  { unfold from_xml. fold (defs_map (xd_defs d)). rewrite (xml_nodes_ok pf d (xd_vars d) ps H). reflexivity. }
  split; auto. intros p. rewrite E. eapply xml_never_bare; eauto.
Qed.
Theorem C53_mistakes_partial : forall {A} {N : NumOps A} (parse_float : string -> option A) d, (forall v, In v (xd_vars d) -> ~ undefined d v) ->
  (exists v, In v (xd_vars d) /\ xml_faulty parse_float d v) -> exists e, from_xml parse_float d = Err e.
Proof.
  intros A N pf d Hu (v & Hv & F). destruct (from_xml_cases pf d) as [(ps & H & _)|(l1 & w & l2 & E & H & [(U & _)|(_ & He)])]; auto.
  - exfalso. destruct (xml_faulty_err pf d v (Hu v Hv) F) as (e & Ee). assert (Hp : exists p, xml_input pf d v p). { clear - H Hv. induction H; [destruct Hv|]. destruct Hv as [->|Hv]; eauto. }
    destruct Hp as (p & Hp). rewrite (xml_input_ok pf d v p Hp) in Ee. discriminate.
  - exfalso. apply (Hu w); auto. rewrite E. apply in_or_app. simpl; auto.
Qed.
(** With a definition for every variable there is never a panic, and there are no other cases. *)
Theorem C53_no_panic_partial : forall {A} {N : NumOps A} (parse_float : string -> option A) d, (forall v, In v (xd_vars d) -> ~ undefined d v) ->
  (forall p, from_xml parse_float d <> Panic p) /\
  ((exists ps, Forall2 (xml_input parse_float d) (xd_vars d) ps) \/ exists v, In v (xd_vars d) /\ xml_faulty parse_float d v).
Proof.
  intros A N pf d Hu. destruct (from_xml_cases pf d) as [(ps & H & E)|(l1 & w & l2 & E & H & [(U & _)|(F & (e & He))])].
  - split; eauto. intros p. rewrite E. eapply xml_never_bare; eauto.
  - exfalso. apply (Hu w); auto. rewrite E. apply in_or_app. simpl; auto.
  - split; [intros p; congruence|]. right. exists w. split; auto. rewrite E. apply in_or_app. simpl; auto.
Qed.
(** Without a definition there is: "never a panic" is false. *)
Theorem C53_missing_definition_refuted : forall {A} {N : NumOps A} (parse_float : string -> option A) name v, 
  from_xml parse_float (mkXDoc name [v] []) = Panic PNil.
Proof. intros. reflexivity. Qed.

(** What the functions used for the text of tables and positions do *)
Theorem C53_fields : fields "" = [] /\ (forall c s, is_space c = true -> fields (String c s) = fields s) /\
  (forall w c s, w <> "" -> no_spaces w -> is_space c = true -> fields (w ++ String c s) = w :: fields s) /\ (forall w, w <> "" -> no_spaces w -> fields w = [w]).
Proof. split; [apply fields_empty|]. split; [apply fields_space|]. split; [apply fields_word|apply fields_last]. Qed.
Theorem C53_trim : forall p s, exists a b, chars s = a ++ chars (trim p s) ++ b /\ forallb p a = true /\ forallb p b = true /\
  (match chars (trim p s) with c :: _ => p c = false | [] => True end) /\ (match rev (chars (trim p s)) with c :: _ => p c = false | [] => True end).
Proof. apply trim_spec. Qed.

(** Spaces are tab, line feed, vertical tab, form feed, carriage return and space. *)
Theorem C53_spaces : forall c, is_space c = true <-> In (nat_of_ascii c) [9; 10; 11; 12; 13; 32]%nat.
Proof.
  intros c. unfold is_space. rewrite orb_true_iff, andb_true_iff, !Nat.leb_le, Nat.eqb_eq. simpl. split; [intros [H|H]; lia|]. intuition lia.
Qed.

(** What is removed around the values of a position: exactly the outer spaces, then exactly the outer parentheses. *)
Theorem C53_trims : forall s,
  (exists a b, chars s = a ++ chars (trim_space s) ++ b /\ (forall c, In c a \/ In c b -> In (nat_of_ascii c) [9; 10; 11; 12; 13; 32]%nat) /\
    forall c r, chars (trim_space s) = c :: r \/ rev (chars (trim_space s)) = c :: r -> ~ In (nat_of_ascii c) [9; 10; 11; 12; 13; 32]%nat) /\
  (exists a b, chars s = a ++ chars (trim_parens s) ++ b /\ (forall c, In c a \/ In c b -> In c ["("; ")"]%char) /\
    forall c r, chars (trim_parens s) = c :: r \/ rev (chars (trim_parens s)) = c :: r -> ~ In c ["("; ")"]%char).
Proof.
  assert (Hp : forall c, is_paren c = true <-> In c ["("; ")"]%char).
  { intros c. unfold is_paren. rewrite orb_true_iff, !Ascii.eqb_eq. simpl. intuition congruence. }
  intros s. split.
  - destruct (trim_spec is_space s) as (a & b & E & Ha & Hb & H1 & H2). exists a, b. fold (trim_space s) in *. split; auto. rewrite forallb_forall in Ha, Hb. split.
    + intros c [Hc|Hc]; apply C53_spaces; auto.
    + intros c r [Hc|Hc] Hin; apply C53_spaces in Hin; rewrite Hc in *; congruence.
  - destruct (trim_spec is_paren s) as (a & b & E & Ha & Hb & H1 & H2). exists a, b. fold (trim_parens s) in *. split; auto. rewrite forallb_forall in Ha, Hb. split.
    + intros c [Hc|Hc]; apply Hp; auto.
    + intros c r [Hc|Hc] Hin; apply Hp in Hin; rewrite Hc in *; congruence.
Qed.
Example C53_trims_example : trim_space " (41, 30)  " = "(41, 30)" /\ trim_parens "(41, 30)" = "41, 30".
Proof. split; reflexivity. Qed.

(** A document with two definitions for a variable, a position and spaces in the table *)
Definition int_parse (s : string) : option xnum := match atoi s with Ok z => Some (nofint z) | _ => None end.
Definition dog_doc : xdoc := mkXDoc "dog" [mkXVar "a" "nature" ["t"; "f"] ["position = (41, 30)"; "color = red"]; mkXVar "b" "" ["t"; "f"] []]
  [mkXDef "a" [] "1 0"; mkXDef "b" ["a"] ("  5 95" ++ String "010" "7 93 ")%string; mkXDef "a" [] "15 85"].
Example C53_example : (exists ps, Forall2 (xml_input int_parse dog_doc) (xd_vars dog_doc) ps) /\
  match from_xml int_parse dog_doc with Ok n => (map nv_pos (n_vars n), map (fun f => (nf_given f, option_map (map xshow) (nf_table f))) (n_factors n)) | _ => ([], []) end =
    ([(20, 2); (0, 0)], [([], Some [SFin 15; SFin 85]); (["a"], Some [SFin 5; SFin 95; SFin 7; SFin 93])]) /\
  xml_faulty int_parse dog_doc (mkXVar "a" "" ["x"; "y"; "z"] []) /\
  xml_faulty int_parse dog_doc (mkXVar "a" "" ["x"; "y"] ["position = 3"]) /\
  xml_faulty int_parse (mkXDoc "" [] [mkXDef "a" [] "1 x"]) (mkXVar "a" "" ["x"; "y"] []).
Proof.
  split; [|split; [vm_compute; reflexivity|]].
  - destruct (C53_no_panic_partial int_parse dog_doc) as (_ & [H|(v & Hv & F)]); auto.
    + intros v [<-|[<-|[]]] U; [apply (U (mkXDef "a" [] "15 85"))|apply (U (mkXDef "b" ["a"] ("  5 95" ++ String "010" "7 93 ")%string))]; simpl; auto.
    + exfalso. destruct (C53_mistakes_partial int_parse dog_doc) as (e & E); eauto.
      * intros w [<-|[<-|[]]] U; [apply (U (mkXDef "a" [] "15 85"))|apply (U (mkXDef "b" ["a"] ("  5 95" ++ String "010" "7 93 ")%string))]; simpl; auto.
      * assert (Hok : match from_xml int_parse dog_doc with Ok _ => true | _ => false end = true) by (vm_compute; reflexivity). rewrite E in Hok. discriminate.
  - split; [|split].
    + apply (x_bad_length _ dog_doc _ (mkXDef "a" [] "15 85")); [exists [mkXDef "a" [] "1 0"; mkXDef "b" ["a"] ("  5 95" ++ String "010" "7 93 ")%string], []; split; auto; split; auto; intros e []|discriminate|].
      intros r. change (List.length (fields (x_table (mkXDef "a" [] "15 85")))) with 2%nat. simpl. lia.
    + destruct (parse_position_cases ["position = 3"]) as [(p & E & _)|(e & prop & E & Hin & Hi & Hb)]; [vm_compute in E; discriminate|]. apply (x_bad_position _ _ _ prop); auto.
    + apply (x_bad_value _ _ _ (mkXDef "a" [] "1 x") "x"); [exists [], []; split; auto; split; auto; intros e []|simpl; auto|reflexivity].
Qed.

Print Assumptions C51_round_trip_partial.
Print Assumptions C51_info_and_colors_refuted.
Print Assumptions C52_valid_documents.
Print Assumptions C52_mistakes.
Print Assumptions C52_all_cases_partial.
Print Assumptions C52_never_panics_refuted.
Print Assumptions C52_any_case.
Print Assumptions C52_letters.
Print Assumptions C53_valid_documents.
Print Assumptions C53_mistakes_partial.
Print Assumptions C53_no_panic_partial.
Print Assumptions C53_missing_definition_refuted.
Print Assumptions C53_fields.
Print Assumptions C53_trim.
Print Assumptions C53_trims.
Print Assumptions C53_spaces.
