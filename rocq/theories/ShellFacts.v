(** Lemmas about the commands: file names, the lines printed, and files that were trained and written. *)
From Coq Require Import ZArith List Bool String Ascii QArith Qcanon Qabs Lia Lqa.
From Verif Require Import Num GoBase GoFacts TextModel VarModel SpecFactor XnumFacts VEModel NetModel SpecNet NetNew TrainModel SpecTrain TrainFacts TrainThms LogicModel LogicShape DocModel SpecDoc TextFacts DocFacts DocRound DocXml
  SpecNetPolicy NetFactors CliModel SpecCli TuiModel SpecTui TuiDraw SpecApp TuiApp TuiStart TuiPicture Props_VE Props_Net Props_Doc Props_Train Props_Cli Props_Tui ShellModel SpecShell.
Import ListNotations.
Open Scope string_scope.
Open Scope list_scope.
Open Scope Z_scope.

(** ** File names *)
Lemma scan_ext_found l rest acc : ~ In "."%char l -> ~ In "/"%char l -> scan_ext (l ++ "."%char :: rest) acc = "."%char :: rev l ++ acc.
Proof.
  revert acc. induction l as [|c l IH]; intros acc H1 H2; cbn [List.app scan_ext].
  - reflexivity.
  - destruct (Ascii.eqb_spec c "/"); [subst; exfalso; apply H2; left; auto|]. destruct (Ascii.eqb_spec c "."); [subst; exfalso; apply H1; left; auto|].
    rewrite IH; [|intros H; apply H1; right; auto|intros H; apply H2; right; auto]. cbn [rev]. rewrite <- app_assoc. reflexivity.
Qed.
Lemma scan_ext_cases l : forall acc, scan_ext l acc = [] \/ exists a rest, l = a ++ "."%char :: rest /\ ~ In "."%char a /\ ~ In "/"%char a.
Proof.
  induction l as [|c l IH]; intros acc; cbn [scan_ext]; [auto|]. destruct (Ascii.eqb_spec c "/"); [auto|]. destruct (Ascii.eqb_spec c ".").
  - right. exists [], l. subst. simpl. auto.
  - destruct (IH (c :: acc)) as [E|(a & rest & -> & H1 & H2)]; [auto|]. right. exists (c :: a), rest. split; auto. split; simpl; intuition.
Qed.
Lemma chars_app a b : chars (a ++ b) = chars a ++ chars b.
Proof. unfold chars. induction a; simpl; congruence. Qed.
Lemma extension_found path e : has_extension path e -> file_ext path = ("." ++ e)%string.
Proof.
  intros (stem & -> & H1 & H2). unfold file_ext. fold (chars (stem ++ "." ++ e)). rewrite !chars_app. change (chars ".") with ["."%char]. cbn [List.app]. rewrite rev_app_distr. cbn [rev]. rewrite <- app_assoc. cbn [List.app].
  rewrite scan_ext_found by (rewrite <- in_rev; auto). rewrite rev_involutive, app_nil_r. change (string_of_list_ascii ("."%char :: chars e)) with (String "." (text (chars e))). rewrite text_chars. reflexivity.
Qed.
Lemma extension_none path : (forall e, ~ has_extension path e) -> file_ext path = "".
Proof.
  intros H. unfold file_ext. destruct (scan_ext_cases (rev (list_ascii_of_string path)) []) as [->|(a & rest & E & H1 & H2)]; [reflexivity|].
  exfalso. apply (H (text (rev a))). exists (text (rev rest)). rewrite chars_text. split; [|rewrite <- !in_rev; auto].
  rewrite <- (text_chars path). unfold chars. rewrite <- (rev_involutive (list_ascii_of_string path)), E, rev_app_distr. cbn [rev]. rewrite <- app_assoc. cbn [List.app].
  generalize (rev rest) (rev a). intros l l'. unfold text. induction l as [|c l IH]; [reflexivity|]. cbn. f_equal. exact IH.
Qed.

(** Small and capital letters *)
Lemma any_case_lower w s : (forall c, In c (chars w) -> exists i, (i < 26)%nat /\ c = ascii_of_nat (97 + i)) -> ascii_only s -> any_case w s -> to_lower s = w.
Proof.
  intros Hw Ha H. rewrite <- (text_chars (to_lower s)), <- (text_chars w). f_equal. rewrite C52_any_case by exact Ha. unfold any_case in H. revert Hw H. generalize (chars w) (chars s). clear.
  intros l l' Hw H. induction H as [|a c l l' Hac _ IH]; [reflexivity|]. cbn [map]. f_equal; [|apply IH; intros; apply Hw; right; auto]. destruct C52_letters as [L1 L2]. destruct Hac as [->|(i & Hi & -> & ->)].
  - destruct (Hw a (or_introl eq_refl)) as (i & Hi & ->). apply L2. intros j Hj E. apply (f_equal nat_of_ascii) in E. rewrite !nat_ascii_embedding in E by lia. lia.
  - apply L1. auto.
Qed.
Lemma lower_any_case w s : (forall c, In c (chars w) -> exists i, (i < 26)%nat /\ c = ascii_of_nat (97 + i)) -> ascii_only s -> to_lower s = w -> any_case w s.
Proof.
  intros Hw Ha E. assert (E' : chars w = map lower_char (chars s)) by (rewrite <- E; apply C52_any_case; exact Ha). clear E. unfold any_case. rewrite E' in *. clear E'. revert Hw. generalize (chars s). clear.
  intros l Hw. induction l as [|c l IH]; cbn [map]; constructor; [|apply IH; intros; apply Hw; right; auto]. destruct C52_letters as [L1 L2].
  destruct (in_dec ascii_dec c (map (fun i => ascii_of_nat (65 + i)) (seq 0 26))) as [Hc|Hc].
  - apply in_map_iff in Hc. destruct Hc as (i & <- & Hi). apply in_seq in Hi. right. exists i. split; [lia|]. split; auto. apply L1. lia.
  - left. symmetry. apply L2. intros i Hi E. apply Hc. apply in_map_iff. exists i. split; auto. apply in_seq. lia.
Qed.
Lemma letters_b w : forallb (fun c => existsb (fun i => Ascii.eqb c (ascii_of_nat (97 + i))) (seq 0 26)) (chars w) = true -> forall c, In c (chars w) -> exists i, (i < 26)%nat /\ c = ascii_of_nat (97 + i).
Proof.
  intros H c Hc. rewrite forallb_forall in H. specialize (H c Hc). apply existsb_exists in H. destruct H as (i & Hi & E). apply in_seq in Hi. apply Ascii.eqb_eq in E. exists i. split; [lia|auto].
Qed.
Lemma ext_lower path e w : has_extension path e -> ascii_only path -> (forall c, In c (chars w) -> exists i, (i < 26)%nat /\ c = ascii_of_nat (97 + i)) ->
  String.eqb (to_lower (file_ext path)) ("." ++ w) = true <-> any_case w e.
Proof.
  intros He Ha Hw. rewrite (extension_found path e He). destruct He as (stem & -> & _).
  assert (Ha' : ascii_only e) by (intros c Hc; apply Ha; rewrite !chars_app; apply in_or_app; right; apply in_or_app; right; auto).
  assert (E : to_lower ("." ++ e) = ("." ++ to_lower e)%string).
  { rewrite <- (text_chars (to_lower ("." ++ e))), <- (text_chars ("." ++ to_lower e)). f_equal. rewrite chars_app, !C52_any_case; auto. intros c Hc. rewrite chars_app in Hc. apply in_app_or in Hc. destruct Hc as [[<-|[]]|Hc]; [vm_compute; lia|auto]. }
  rewrite E, String.eqb_eq. split; intros H.
  - apply lower_any_case; auto. injection H. auto.
  - f_equal. apply any_case_lower; auto.
Qed.

(** ** Lines *)
Lemma pad_column w l : in_column w l (pad w l).
Proof. exists (Z.to_nat (w - zlen l)). split; [reflexivity|]. unfold pad, zlen. rewrite app_length, repeat_length. lia. Qed.
Lemma decimal_digits fuel : forall n, 0 <= n -> Forall (fun c => c <> 32) (decimal fuel n).
Proof.
  induction fuel as [|fuel IH]; intros n Hn; cbn [decimal]; [constructor|]. destruct (n <? 10) eqn:E.
  - constructor; [lia|constructor].
  - apply Forall_app. split; [apply IH; apply Z.div_pos; lia|]. constructor; [pose proof (Z.mod_pos_bound n 10); lia|constructor].
Qed.
Lemma fmt_fixed_pad w x : exists content, fmt_fixed w x = pad w content /\ fmt_fixed 0 x = content.
Proof.
  assert (P : forall l, pad 0 l = l) by (intros l; unfold pad, zlen; replace (Z.to_nat (0 - _)) with 0%nat by lia; reflexivity).
  unfold fmt_fixed. eexists. split; [reflexivity|]. apply P.
Qed.
Lemma fmt_fixed_column w x : number_in_column w x (fmt_fixed w x).
Proof.
  destruct x as [q| | |]; try apply pad_column. destruct (fmt_fixed_pad w (Fin q)) as (content & -> & E). destruct (fmt_fixed_reads 0 q) as (r & Hr & Hq). rewrite E in Hr.
  exists content, r. split; [apply pad_column|]. split; auto. split; auto. rewrite <- E. unfold fmt_fixed. cbv zeta. unfold pad. match goal with |- context [Z.to_nat (0 - zlen ?l)] => replace (Z.to_nat (0 - zlen l)) with 0%nat by (unfold zlen; lia) end. cbn [repeat List.app].
  destruct (qlt q 0); [vm_compute; discriminate|]. cbn [List.app]. set (m := round_even _). assert (Hm : 0 <= m) by (apply round_even_nonneg; pose proof (Qabs_nonneg (this q)); lra). clearbody m.
  assert (H0 : 0 <= m / 1000) by (apply Z.div_pos; lia). pose proof (decimal_digits (S (Z.to_nat (Z.log2 m))) (m / 1000) H0) as Hd. destruct (decimal _ _) as [|c l]; [vm_compute; discriminate|]. inversion Hd. auto.
Qed.
Lemma flat_columns {X} (f : X -> list Z) l : flat_map (fun x => 32 :: f x) l = columns (map f l).
Proof. unfold columns. induction l; simpl; congruence. Qed.
Lemma Forall2_map_r {X Y} (R : X -> Y -> Prop) (f : X -> Y) l : (forall x, In x l -> R x (f x)) -> Forall2 R l (map f l).
Proof. induction l; simpl; constructor; auto. Qed.
Lemma inference_lines_ok n ev m v : displayed n false ev m -> In v (n_vars n) -> NoDup (map nv_name (n_vars n)) -> prints_node n ev v (inference_lines ev m v).
Proof.
  intros Hm Hv Hnd. unfold inference_lines. rewrite (Hm (nv_name v)), (var_named_in' _ v) by auto. cbn [option_map]. unfold prints_node.
  exists (map (fun s => pad 10 (runes_of s)) (nv_outcomes v)), (pad 30 (runes_of (nv_name v))), (map (fun p => if is_utility v then fmt_fixed 10 p else fmt_fixed 9 (nmul p (nofint 100)) ++ [rune "%"]) (shown_numbers n false ev v)).
  split; [apply Forall2_map_r; intros; apply pad_column|]. split; [apply pad_column|]. split.
  - apply Forall2_map_r. intros x _. unfold prints_number, is_utility. destruct (nv_type v); cbn [nodeType_eqb]; [| |apply fmt_fixed_column].
    + exists (fmt_fixed 9 (nmul x (nofint 100))). split; [reflexivity|]. destruct x; apply fmt_fixed_column.
    + exists (fmt_fixed 9 (nmul x (nofint 100))). split; [reflexivity|]. destruct x; apply fmt_fixed_column.
  - unfold has_key. rewrite <- !flat_columns. assert (E : (if match sget_map ev (nv_name v) with Some _ => true | None => false end then runes_of "  +" else []) = match sget_map ev (nv_name v) with Some _ => runes_of "  +" | None => [] end) by (destruct (sget_map ev (nv_name v)); auto). rewrite E. clear E.
    do 4 f_equal. apply flat_map_ext. intros x. destruct (is_utility v); auto.
Qed.

(** The columns of nodes with outcomes *)
Lemma zlen_columns w l : (forall t, In t l -> zlen t = w) -> zlen (columns l) = (w + 1) * zlen l.
Proof.
  unfold columns, zlen. induction l as [|t l IH]; intros H; [simpl; lia|]. cbn [flat_map]. rewrite app_length. cbn [List.length]. pose proof (H t (or_introl eq_refl)). specialize (IH (fun x Hx => H x (or_intror Hx))). lia.
Qed.
Lemma bar_column p : bar_ok p -> zlen (fmt_fixed 9 (nmul p (nofint 100)) ++ [rune "%"]) = 10.
Proof.
  intros H. unfold zlen. rewrite app_length. change (List.length [rune "%"]) with 1%nat. destruct p as [q| | |]; try contradiction; [|reflexivity].
  pose proof (bar_text_len (Fin q) H) as L. cbn [bar_text] in L. unfold fmt_fixed, pad, zlen in *. rewrite app_length, repeat_length in *. lia.
Qed.
Lemma inference_columns n ev m v : displayable n -> valid_observations n ev -> displayed n false ev m -> In v (n_vars n) -> nv_type v <> Utility ->
  zlen (runes_of (nv_name v)) <= 30 -> (forall o, In o (nv_outcomes v) -> zlen (runes_of o) <= 10) ->
  exists l1 l2, inference_lines ev m v = [l1; l2] /\ zlen l1 = 30 + 11 * zlen (nv_outcomes v) /\
    zlen l2 = 30 + 11 * zlen (nv_outcomes v) + match sget_map ev (nv_name v) with Some _ => 3 | None => 0 end.
Proof.
  intros Hd Hev Hm Hv Ht Hn Ho. unfold inference_lines. rewrite (Hm (nv_name v)), (proj2 (var_named_in n (dp_wf n Hd) (nv_name v) v)) by auto. cbn [option_map].
  eexists _, _. split; [reflexivity|]. assert (Eu : is_utility v = false) by (unfold is_utility; destruct (nv_type v); auto; congruence). rewrite Eu. split.
  - rewrite flat_columns. unfold zlen at 1. rewrite app_length, Nat2Z.inj_add, repeat_length. fold (zlen (columns (map (fun s => pad 10 (runes_of s)) (nv_outcomes v)))). rewrite (zlen_columns 10).
    + unfold zlen. rewrite map_length. lia.
    + intros t Hin. apply in_map_iff in Hin. destruct Hin as (o & <- & Hin). apply zlen_pad. auto.
  - assert (Et : is_total n (nv_name v) = false). { destruct (is_total n (nv_name v)) eqn:E; auto. exfalso. apply Ht. apply (total_utility n Hd v Hv E). }
    assert (Hb : forall p, In p (shown_numbers n false ev v) -> bar_ok p).
    { intros p Hp. unfold shown_numbers in Hp. cbv zeta in Hp. rewrite Et in Hp. destruct (sget_map ev (nv_name v)) eqn:Eo.
      - unfold one_hot in Hp. apply in_map_iff in Hp. destruct Hp as (o & <- & _). destruct (String.eqb o s); cbn; split; (apply Qcle_refl || discriminate).
      - destruct (nv_type v) eqn:Ety; [| |congruence]; (apply in_map_iff in Hp; destruct Hp as (k & <- & Hk); apply in_seq in Hk; apply posterior_bar; auto; [rewrite Ety; discriminate|apply not_observed; auto|lia]). }
    assert (Hc : List.length (shown_numbers n false ev v) = List.length (nv_outcomes v)).
    { rewrite (shown_count n Hd false ev Hev v Hv). unfold count_of. rewrite Et. destruct (nv_type v); congruence. }
    rewrite flat_columns. unfold zlen at 1. rewrite !app_length, !Nat2Z.inj_add.
    fold (zlen (pad 30 (runes_of (nv_name v)))). rewrite zlen_pad by auto. fold (zlen (columns (map (fun p => fmt_fixed 9 (nmul p (nofint 100)) ++ [rune "%"]) (shown_numbers n false ev v)))). rewrite (zlen_columns 10).
    + unfold zlen. rewrite map_length, Hc. unfold has_key. destruct (sget_map ev (nv_name v)); cbn [List.length]; [change (List.length (runes_of "  +")) with 3%nat|]; lia.
    + intros t Hin. apply in_map_iff in Hin. destruct Hin as (p & <- & Hin). apply bar_column. auto.
Qed.

(** ** Networks from files *)
Lemma Forall2_yaml_vars {A} {N : NumOps A} l (ps : list (nvar * nfactor A)) : Forall2 node_input l ps ->
  (forall v, In v (map fst ps) -> nv_factor v = None) /\ forall v, In v (map fst ps) -> exists f, In f (map snd ps) /\ nf_for f = nv_name v.
Proof.
  intros H. induction H as [|y p l ps (t & tb & _ & _ & ->) _ [I1 I2]]; [split; intros v []|]. cbn [map fst snd]. split.
  - intros v [<-|Hv]; auto.
  - intros v [<-|Hv]; [eexists; split; [left; reflexivity|reflexivity]|]. destruct (I2 v Hv) as (f & Hf & E). exists f. split; [right; auto|auto].
Qed.
Lemma Forall2_xml_vars {A} (pf : string -> option A) d l (ps : list (nvar * nfactor A)) : Forall2 (xml_input pf d) l ps ->
  (forall v, In v (map fst ps) -> nv_factor v = None) /\ forall v, In v (map fst ps) -> exists f, In f (map snd ps) /\ nf_for f = nv_name v.
Proof.
  intros H. induction H as [|y p l ps (def & t & pos & values & _ & _ & _ & _ & _ & ->) _ [I1 I2]]; [split; intros v []|]. cbn [map fst snd]. split.
  - intros v [<-|Hv]; auto.
  - intros v [<-|Hv]; [eexists; split; [left; reflexivity|reflexivity]|]. destruct (I2 v Hv) as (f & Hf & E). exists f. split; [right; auto|auto].
Qed.
Lemma factor_for_in {A} (fs : list (nfactor A)) x : (exists f, In f fs /\ nf_for f = x) -> exists f, factor_for fs x = Some f.
Proof.
  intros (f & Hf & E). unfold factor_for. destruct (find _ fs) as [g|] eqn:Ef; [eauto|]. exfalso. apply (find_none _ _ Ef f) in Hf. rewrite E, String.eqb_refl in Hf. discriminate.
Qed.
Section Files.
Context {A : Type} {N : NumOps A}.
Variables (pf : string -> option A) (D : Type) (read_file : string -> option D) (yaml_of : D -> option (ydoc A)) (xml_of : D -> option xdoc).
Notation from_file := (from_file pf D read_file yaml_of xml_of).
Lemma from_file_built reg path n : like_new reg -> fst (from_file reg path) = Ok n -> exists name info vars fs,
  (forall v, In v vars -> nv_factor v = None) /\ net_new name info vars fs = Ok n /\ (forall v, In v vars -> exists f, factor_for fs (nv_name v) = Some f) /\ map nf_for fs = map nv_name vars.
Proof.
  intros Hreg E. unfold ShellModel.from_file in E. destruct (read_file path) as [data|]; [|discriminate E]. cbv zeta in E. destruct (String.eqb _ ".yml").
  - destruct (yaml_of data) as [doc|]; [|discriminate E]. destruct (yaml_split (yd_vars doc)) as [(ps & Hps)|(l1 & ps & v & l2 & El & Hps & Hbad)].
    + unfold from_yaml in E. pose proof (yaml_nodes_ok _ _ Hps reg Hreg) as Ey. destruct (yaml_nodes reg (yd_vars doc)) as [l reg']. cbn [fst] in *. rewrite Ey in E. cbn [gbind] in E.
      destruct (Forall2_yaml_vars _ _ Hps) as [H1 H2]. eexists _, _, _, _. split; [exact H1|]. split; [exact E|]. split; [intros v Hv; apply factor_for_in; auto|]. clear - Hps. induction Hps as [|y p l ps (t & tb & _ & _ & ->) _ IH]; auto. cbn [map fst snd nf_for nv_name]. rewrite IH. auto.
    + exfalso. destruct (yaml_nodes_stop l1 ps v l2 Hps reg Hreg) as (reg' & Hr' & Hy). unfold from_yaml in E. rewrite El in E. destruct (yaml_nodes reg (l1 ++ v :: l2)) as [l reg2]. cbn [fst] in *.
      destruct Hbad as [Hb|Hb].
      * destruct (faulty_error reg' v Hr' Hb) as (e & He). rewrite He in Hy. rewrite Hy in E. discriminate E.
      * destruct (crashing_panics reg' v Hr' Hb) as (p & He). rewrite He in Hy. rewrite Hy in E. discriminate E.
  - destruct (_ || _); [|discriminate E]. destruct (xml_of data) as [doc|]; [|discriminate E]. cbn [fst] in E. unfold from_xml in E. fold (defs_map (xd_defs doc)) in E.
    destruct (mapM _ (xd_vars doc)) as [ps| |] eqn:Em; [|discriminate E|discriminate E]. cbn [gbind] in E.
    assert (Hps : Forall2 (xml_input pf doc) (xd_vars doc) ps).
    { revert ps Em E. intros ps Em _. revert ps Em. induction (xd_vars doc) as [|v l IH]; intros ps Em; cbn [mapM] in Em; [injection Em as <-; constructor|].
      destruct (xml_node_cases pf doc v) as [(p & Ep & Hp)|[(e & Ep & _)|(Ep & _)]]; rewrite Ep in Em; cbn [gbind] in Em; try discriminate Em.
      destruct (mapM _ l) as [ps'| |] eqn:El; cbn [gbind] in Em; try discriminate Em. injection Em as <-. constructor; auto. }
    destruct (Forall2_xml_vars _ _ _ _ Hps) as [H1 H2]. eexists _, _, _, _. split; [exact H1|]. split; [exact E|]. split; [intros v Hv; apply factor_for_in; auto|]. clear - Hps. induction Hps as [|y p l ps (def & t & pos & values & _ & _ & _ & _ & _ & ->) _ IH]; auto. cbn [map fst snd nf_for nv_name]. rewrite IH. auto.
Qed.
Lemma from_file_new reg path n : like_new reg -> fst (from_file reg path) = Ok n -> exists name info vars fs,
  (forall v, In v vars -> nv_factor v = None) /\ net_new name info vars fs = Ok n /\ forall v, In v vars -> exists f, factor_for fs (nv_name v) = Some f.
Proof. intros H E. destruct (from_file_built reg path n H E) as (name & info & vars & fs & H1 & H2 & H3 & _). exists name, info, vars, fs. auto. Qed.
End Files.

(** ** Training and writing *)
Lemma table_size_snoc vars l x : table_size vars (l ++ [x]) = (table_size vars l * num_outcomes vars x)%nat.
Proof. unfold table_size. induction l as [|y l IH]; cbn [List.app fold_right]; [lia|]. rewrite IH. lia. Qed.
Lemma trainable_rows {A} name info vars (fs : list (nfactor A)) n : (forall v, In v vars -> nv_factor v = None) -> net_new name info vars fs = Ok n ->
  (forall v, In v vars -> exists f, factor_for fs (nv_name v) = Some f) -> trainable n -> full_rows vars fs.
Proof.
  intros Hnil E Hf Ht w Hw. destruct (new_api name info vars fs Hnil) as ([_ Hst] & _ & Hn). specialize (Hst (ex_intro _ n E)). destruct (Hn n E) as (_ & _ & _ & _ & Hvs & _ & Hl & _).
  destruct (Hf w Hw) as (f & Ef). destruct (Hl w f Hw Ef) as (v & k & Hv & Hk & _ & Hkf). destruct (var_named_some _ _ _ Hv) as (Hin & Hnm).
  assert (Hs : same_variable w v). { destruct (Forall2_in_r _ _ _ _ Hvs Hin) as (w' & Hw' & Hs). assert (w' = w); [|subst; auto]. pose proof (st_names _ _ Hst) as Hnd. destruct Hs as (En & _). pose proof (var_named_in' vars w Hnd Hw) as E1. pose proof (var_named_in' vars w' Hnd Hw') as E2. congruence. }
  destruct Hs as (E1 & E2 & E3 & _). split; [rewrite <- E3; apply (ta_outcomes n Ht v Hin)|]. exists f. split; auto.
  destruct (ta_factor n Ht v Hin) as (g & (k' & K1 & K2) & Hfor & _ & _ & _ & Hdec & Hlen). assert (g = linked_factor vars f) by congruence. subst g. cbn [linked_factor nf_for nf_given nf_table] in *.
  destruct (nodeType_eqb (nv_type v) Decision) eqn:Ed.
  - exists 0%nat. rewrite Hdec by (destruct (nv_type v); auto; discriminate Ed). reflexivity.
  - rewrite Hlen by (intros Q; rewrite Q in Ed; discriminate Ed). rewrite table_size_snoc, Hfor. unfold num_outcomes. rewrite (var_named_in' _ v (ta_names n Ht) Hin), <- E3. eauto.
Qed.
Lemma Forall2_in_combine {X Y} (R : X -> Y -> Prop) l l' : Forall2 R l l' -> forall x, In x l -> exists y, In (x, y) (combine l l') /\ R x y.
Proof. induction 1 as [|a b l l' H _ IH]; intros x; [intros []|]. intros [<-|Hx]; cbn [combine]; [exists b; split; [left; auto|auto]|]. destruct (IH x Hx) as (y & H1 & H2). exists y. split; [right|]; auto. Qed.
