(** Reading YAML documents. *)
From Coq Require Import ZArith List Bool String Ascii Lia.
From Verif Require Import Num GoBase GoFacts VarModel NetModel SpecNet LogicModel LogicShape TextModel DocModel SpecDoc TextFacts.
Import ListNotations.
Open Scope string_scope.
Open Scope list_scope.
Open Scope Z_scope.

Lemma zlen_pos {X} (l : list X) : (0 <? zlen l) = match l with [] => false | _ => true end.
Proof. destruct l; reflexivity. Qed.

Lemma type_lookup s t : mget String.eqb node_types s = Some t <-> type_text s t.
Proof.
  unfold node_types. cbn [mget]. destruct (String.eqb_spec s "") as [->|H1]; [split; [intros E; injection E as <-; simpl; auto|destruct t; simpl; intuition discriminate]|].
  destruct (String.eqb_spec s "nature") as [->|H2]; [split; [intros E; injection E as <-; simpl; auto|destruct t; simpl; intuition discriminate]|].
  destruct (String.eqb_spec s "decision") as [->|H3]; [split; [intros E; injection E as <-; simpl; auto|destruct t; simpl; intuition discriminate]|].
  destruct (String.eqb_spec s "utility") as [->|H4]; [split; [intros E; injection E as <-; simpl; auto|destruct t; simpl; intuition discriminate]|].
  split; [discriminate|]. destruct t; simpl; intuition.
Qed.
Lemma type_unknown s : mget String.eqb node_types s = None <-> forall t, ~ type_text s t.
Proof.
  split.
  - intros E t H. apply type_lookup in H. congruence.
  - intros H. destruct (mget String.eqb node_types s) as [t|] eqn:E; auto. apply type_lookup in E. exfalso. eapply H; eauto.
Qed.

Section Y.
Context {A : Type} {N : NumOps A}.
Notation registry := (list (string * lfactor A)).

Lemma logic_get_names (reg : registry) op : like_new reg -> (logic_get reg op = None <-> ~ In op (operator_names (A := A))).
Proof.
  intros H. specialize (H op). unfold logic_get, operator_names in *. split.
  - intros E. rewrite E in H. destruct (mget String.eqb factors op) eqn:E2; [tauto|]. intros Hin. apply in_map_iff in Hin. destruct Hin as ((k, l) & <- & Hin). apply (mget_None _ String.eqb_eq) in E2. apply E2. apply in_map_iff. exists (k, l). auto.
  - intros Hno. destruct (mget String.eqb reg op) as [l|] eqn:E; auto. destruct (mget String.eqb factors op) as [l0|] eqn:E2; [|tauto]. exfalso. apply Hno. apply (mget_In _ String.eqb_eq) in E2. apply in_map_iff. exists (op, l0). auto.
Qed.

Definition some_table (r : gores (list A)) : gores (option (list A)) := match r with Ok t => Ok (Some t) | Err e => Err e | Panic p => Panic p end.

Lemma like_use reg name args given : like_new reg -> like_new (snd (use_operator (A := A) reg name args given)).
Proof.
  intros H. unfold use_operator. pose proof (reg_set_like reg name args H). destruct (reg_set_args reg name args). exact H0.
Qed.

Lemma to_table_like reg v : like_new reg -> like_new (snd (to_table (A := A) reg v)).
Proof.
  intros H. unfold to_table. destruct (_ && _); auto. destruct (String.eqb _ _); auto. destruct (split _ _) as [|w ws]; auto. destruct (logic_get _ _); auto.
  destruct (mapM atoi ws) as [args| |]; auto. pose proof (like_use reg (to_lower w) args (zlen (y_given v)) H). destruct (use_operator reg (to_lower w) args (zlen (y_given v))). auto.
Qed.

Lemma to_table_logic reg v op args : like_new reg -> y_logic v <> "" -> y_table v = [] -> logic_text (y_logic v) op args ->
  fst (to_table (A := A) reg v) = if logic_get reg op then some_table (operator_table op args (List.length (y_given v))) else Err (EMsg "unknown logic operator").
Proof.
  intros H Hl Ht (w & ws & Hp & -> & Hn). unfold to_table. rewrite zlen_pos, Ht. cbn [andb]. destruct (String.eqb_spec (y_logic v) ""); [tauto|].
  rewrite <- (parts_unique _ _ _ Hp). destruct (mapM_numbers ws) as [(args' & E & Hn')|(e & a & E & Ha & Hno)].
  - pose proof (numbers_unique _ _ _ Hn Hn'). subst args'. rewrite E. destruct (logic_get reg (to_lower w)); auto. pose proof (sequential_use reg (to_lower w) args (zlen (y_given v)) H) as Hs.
    unfold operator_table. change (Z.of_nat (List.length (y_given v))) with (zlen (y_given v)). rewrite <- Hs. destruct (use_operator reg (to_lower w) args (zlen (y_given v))) as [r reg']. cbn [fst]. destruct r; auto.
  - exfalso. clear - Hn Ha Hno. induction Hn; [destruct Ha|]. destruct Ha as [->|Ha]; [eapply Hno; eauto|auto].
Qed.

Lemma to_table_functional reg v r : like_new reg -> node_table_of v r -> fst (to_table (A := A) reg v) = r.
Proof.
  intros H [(H1 & H2 & ->)|[(H1 & H2 & ->)|(H1 & H2 & op & args & Ht & Hop & ->)]].
  - unfold to_table. rewrite zlen_pos, H1, H2. auto.
  - unfold to_table. rewrite zlen_pos, H1. destruct (y_table v); [tauto|]. auto.
  - rewrite (to_table_logic reg v op args); auto. destruct (logic_get reg op) eqn:E; auto. apply logic_get_names in E; auto. tauto.
Qed.

Lemma to_table_cases reg v : like_new reg -> node_table_of v (fst (to_table (A := A) reg v)) \/ exists e, fst (to_table reg v) = Err e /\ faulty v.
Proof.
  intros H. destruct (y_table v) as [|row table] eqn:Et; destruct (String.eqb_spec (y_logic v) "") as [El|El].
  - left. assert (Ho : node_table_of v (Ok None)) by (left; auto). rewrite (to_table_functional reg v _ H Ho). auto.
  - pose proof (split_parts " " (y_logic v)) as Hp. pose proof (split_by_nonempty (Ascii.eqb " ") (y_logic v)) as Hne. fold (split " " (y_logic v)) in Hne.
    destruct (split " " (y_logic v)) as [|w ws] eqn:Es; [tauto|]. destruct (mapM_numbers ws) as [(args & E & Hn)|(e & a & E & Ha & Hno)].
    + assert (Ht : logic_text (y_logic v) (to_lower w) args) by (exists w, ws; auto).
      destruct (logic_get reg (to_lower w)) as [l|] eqn:Eg.
      * left. assert (Hin : In (to_lower w) (operator_names (A := A))). { destruct (in_dec string_dec (to_lower w) (operator_names (A := A))); auto. apply (logic_get_names reg) in n; auto. congruence. }
        rewrite (to_table_functional reg v (some_table (operator_table (to_lower w) args (List.length (y_given v))))); auto; right; right; (split; [auto|split; [auto|]]); exists (to_lower w), args; auto.
      * right. eexists. split; [rewrite (to_table_logic reg v (to_lower w) args), Eg by auto; reflexivity|]. apply (bad_operator v w ws); auto. apply logic_get_names in Eg; auto.
    + right. assert (Hb : faulty v) by (apply (bad_number v w ws a); auto). unfold to_table. rewrite Es, zlen_pos, Et. cbn [andb]. destruct (String.eqb_spec (y_logic v) ""); [tauto|].
      rewrite E. destruct (logic_get reg (to_lower w)); cbn [fst]; eauto.
  - left. assert (Ho : node_table_of v (Ok (Some (List.concat (y_table v))))) by (right; left; rewrite Et; repeat split; auto; discriminate). rewrite (to_table_functional reg v _ H Ho). auto.
  - right. assert (Hb : faulty v) by (apply table_and_logic; [congruence|auto]). unfold to_table. rewrite zlen_pos, Et. destruct (String.eqb_spec (y_logic v) ""); [tauto|]. cbn [andb negb fst]. eauto.
Qed.

Lemma faulty_error reg v : like_new reg -> faulty v -> exists e, fst (yaml_node (A := A) reg v) = Err e.
Proof.
  intros H F. unfold yaml_node. destruct (mget String.eqb node_types (y_type v)) as [t|] eqn:Et; [|simpl; eauto].
  assert (Q : exists e, fst (to_table reg v) = Err e).
  { destruct F as [F|F1 F2|w ws F1 F2 F3|w ws a F1 F2 F3 F4|op args e F1 F2 F3].
    - apply type_unknown in F. congruence.
    - unfold to_table. rewrite zlen_pos. destruct (y_table v); [tauto|]. destruct (String.eqb_spec (y_logic v) ""); [tauto|]. simpl. eauto.
    - unfold to_table. destruct (_ && _); [simpl; eauto|]. destruct (String.eqb_spec (y_logic v) ""); [tauto|]. rewrite <- (parts_unique _ _ _ F2). apply (logic_get_names reg) in F3; auto. rewrite F3. simpl. eauto.
    - unfold to_table. destruct (_ && _); [simpl; eauto|]. destruct (String.eqb_spec (y_logic v) ""); [tauto|]. rewrite <- (parts_unique _ _ _ F2). destruct (logic_get _ _); [|simpl; eauto].
      destruct (mapM_numbers ws) as [(args & E & Hn)|(e & a' & E & _)]; [|rewrite E; simpl; eauto]. exfalso. clear - Hn F3 F4. induction Hn; [destruct F3|]. destruct F3 as [->|F3]; [eapply F4; eauto|auto].
    - destruct (y_table v) as [|row table] eqn:Etab.
      + rewrite (to_table_logic reg v op args); auto. rewrite F3. destruct (logic_get reg op); simpl; eauto.
      + unfold to_table. rewrite zlen_pos, Etab. destruct (String.eqb_spec (y_logic v) ""); [tauto|]. simpl. eauto. }
  destruct Q as (e & E). destruct (to_table reg v) as [r reg']. cbn [fst] in *. subst r. simpl. eauto.
Qed.
Lemma input_ok reg v p : like_new reg -> node_input v p -> fst (yaml_node (A := A) reg v) = Ok p.
Proof.
  intros H (t & table & Ht & Htab & ->). unfold yaml_node. apply type_lookup in Ht. rewrite Ht. pose proof (to_table_functional reg v _ H Htab) as E.
  destruct (to_table reg v) as [r reg']. cbn [fst] in *. subst r. auto.
Qed.
Lemma crashing_panics reg v : like_new reg -> crashing v -> exists p, fst (yaml_node (A := A) reg v) = Panic p.
Proof.
  intros H ((t & Ht) & p & Htab). unfold yaml_node. apply type_lookup in Ht. rewrite Ht. pose proof (to_table_functional reg v _ H Htab) as E.
  destruct (to_table reg v) as [r reg']. cbn [fst] in *. subst r. simpl. eauto.
Qed.
Lemma yaml_node_cases (v : yvar A) : (exists p, node_input v p) \/ faulty v \/ crashing v.
Proof.
  destruct (mget String.eqb node_types (y_type v)) as [t|] eqn:Et.
  - apply type_lookup in Et. destruct (to_table_cases factors v like_new_start) as [H|(e & _ & H)]; auto. destruct (fst (to_table factors v)) as [table|e|p].
    + left. eexists. exists t, table. eauto.
    + right. left. destruct H as [(_ & _ & H)|[(_ & _ & H)|(H1 & H2 & op & args & H3 & H4 & H5)]]; try discriminate.
      apply (operator_error v op args e); auto. destruct (operator_table op args (List.length (y_given v))); congruence.
    + right. right. split; eauto.
  - right. left. apply bad_type. apply type_unknown. auto.
Qed.
Lemma yaml_node_like reg v : like_new reg -> like_new (snd (yaml_node (A := A) reg v)).
Proof. intros H. unfold yaml_node. destruct (mget _ _ _); auto. pose proof (to_table_like reg v H). destruct (to_table reg v). auto. Qed.

Lemma yaml_nodes_ok l ps : Forall2 node_input l ps -> forall reg, like_new reg -> fst (yaml_nodes (A := A) reg l) = Ok ps.
Proof.
  induction 1 as [|v p l ps H1 H2 IH]; intros reg H; auto. cbn [yaml_nodes]. pose proof (input_ok reg v p H H1) as E. pose proof (yaml_node_like reg v H) as HL.
  destruct (yaml_node reg v) as [x reg1]. cbn [fst snd] in *. subst x. specialize (IH reg1 HL). destruct (yaml_nodes reg1 l) as [xs reg2]. cbn [fst] in *. subst xs. auto.
Qed.
Lemma yaml_nodes_stop l ps v rest : Forall2 node_input l ps -> forall reg, like_new reg -> exists reg', like_new reg' /\
  match fst (yaml_node reg' v) with
  | Ok _ => True
  | Err e => fst (yaml_nodes (A := A) reg (l ++ v :: rest)) = Err e
  | Panic p => fst (yaml_nodes (A := A) reg (l ++ v :: rest)) = Panic p
  end.
Proof.
  induction 1 as [|w p l ps H1 H2 IH]; intros reg H; cbn [app yaml_nodes].
  - exists reg. split; auto. destruct (yaml_node reg v) as [[x|e|pp] reg1]; cbn [fst]; auto.
  - pose proof (input_ok reg w p H H1) as E. pose proof (yaml_node_like reg w H) as HL. destruct (yaml_node reg w) as [x reg1]. cbn [fst snd] in *. subst x.
    destruct (IH reg1 HL) as (reg2 & HL2 & Hm). exists reg2. split; auto. destruct (fst (yaml_node reg2 v)); auto; destruct (yaml_nodes reg1 (l ++ v :: rest)) as [xs reg3]; cbn [fst] in *; subst xs; auto.
Qed.
Lemma yaml_split (l : list (yvar A)) : (exists ps, Forall2 node_input l ps) \/ exists l1 ps v l2, l = l1 ++ v :: l2 /\ Forall2 node_input l1 ps /\ (faulty v \/ crashing v).
Proof.
  induction l as [|v l IH]; [left; exists []; auto|]. destruct (yaml_node_cases v) as [(p & Hp)|H].
  - destruct IH as [(ps & H)|(l1 & ps & w & l2 & -> & H1 & H2)]; [left; eauto|]. right. exists (v :: l1), (p :: ps), w, l2. auto.
  - right. exists [], [], v, l. auto.
Qed.
End Y.
