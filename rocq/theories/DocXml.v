(** Reading XML documents. *)
From Coq Require Import ZArith List Bool String Ascii Lia.
From Verif Require Import Num GoBase GoFacts VarModel NetModel SpecNet NetNew LogicModel TextModel DocModel SpecDoc TextFacts DocFacts.
Import ListNotations.
Open Scope string_scope.
Open Scope list_scope.
Open Scope Z_scope.

(** ** Text functions *)
Lemma trim_left_spec p l : exists a, l = a ++ trim_left p l /\ forallb p a = true /\ match trim_left p l with c :: _ => p c = false | [] => True end.
Proof.
  induction l as [|c l (a & E & Ha & H)]; [exists []; simpl; auto|]. cbn [trim_left]. destruct (p c) eqn:Ec.
  - exists (c :: a). split; [simpl; f_equal; exact E|]. simpl. rewrite Ec. auto.
  - exists []. simpl. auto.
Qed.
Theorem trim_spec p s : exists a b, chars s = a ++ chars (trim p s) ++ b /\ forallb p a = true /\ forallb p b = true /\
  (match chars (trim p s) with c :: _ => p c = false | [] => True end) /\ (match rev (chars (trim p s)) with c :: _ => p c = false | [] => True end).
Proof.
  unfold trim. fold (chars s). destruct (trim_left_spec p (chars s)) as (a & Ea & Ha & H1). destruct (trim_left_spec p (rev (trim_left p (chars s)))) as (b & Eb & Hb & H2).
  set (m := trim_left p (rev (trim_left p (chars s)))) in *. exists a, (rev b). unfold chars at 2 3 4. rewrite list_ascii_of_string_of_list_ascii. rewrite rev_involutive.
  assert (E : trim_left p (chars s) = rev m ++ rev b). { rewrite <- rev_app_distr, <- Eb, rev_involutive. auto. }
  split; [rewrite <- E; auto|]. split; auto. split; [|split; auto].
  - clear - Hb. rewrite forallb_forall in *. intros x Hx. apply Hb. apply in_rev. auto.
  - rewrite E in H1. destruct (rev m); auto.
Qed.

Definition no_spaces (w : string) : Prop := forall c, In c (chars w) -> is_space c = false.
Lemma split_by_app p w c s : (forall x, In x (chars w) -> p x = false) -> p c = true -> split_by p (w ++ String c s) = w :: split_by p s.
Proof.
  induction w as [|x w IH]; intros H Hc; simpl.
  - rewrite Hc. auto.
  - simpl in H. rewrite (H x) by auto. rewrite IH; auto.
Qed.
Lemma split_by_none p w : (forall x, In x (chars w) -> p x = false) -> split_by p w = [w].
Proof. induction w as [|x w IH]; intros H; simpl; auto. simpl in H. rewrite (H x) by auto. rewrite IH; auto. Qed.
Theorem fields_empty : fields "" = [].
Proof. reflexivity. Qed.
Theorem fields_space c s : is_space c = true -> fields (String c s) = fields s.
Proof. intros H. unfold fields. cbn [split_by]. rewrite H. reflexivity. Qed.
Theorem fields_word w c s : w <> "" -> no_spaces w -> is_space c = true -> fields (w ++ String c s) = w :: fields s.
Proof. intros Hw Hn Hc. unfold fields. rewrite split_by_app by auto. cbn [filter]. destruct (String.eqb_spec w ""); [tauto|]. auto. Qed.
Theorem fields_last w : w <> "" -> no_spaces w -> fields w = [w].
Proof. intros Hw Hn. unfold fields. rewrite split_by_none by auto. cbn [filter]. destruct (String.eqb_spec w ""); [tauto|]. auto. Qed.

(** ** Positions *)
Definition pos_step (pos : Z * Z) (prop : string) : gores (Z * Z) :=
    match split "=" prop with
    | [key; value] =>
      if negb (String.eqb (trim_space key) "position") then Ok pos
      else
        match split "," (trim_parens (trim_space value)) with
        | [a; b] =>
          let! x := atoi (trim_space a) in
          let! y := atoi (trim_space b) in
          Ok (Z.quot x 2, Z.quot y 12)
        | _ => Err (EMsg "syntax error in property position")
        end
    | _ => Ok pos
    end.
Lemma pos_step_cases pos prop : (pos_step pos prop = Ok pos /\ ~ is_position prop) \/ (exists p, pos_step pos prop = Ok p /\ position_text prop p /\ is_position prop) \/
  (exists e, pos_step pos prop = Err e /\ is_position prop /\ forall p, ~ position_text prop p).
Proof.
  unfold pos_step. pose proof (split_parts "=" prop) as Hp. destruct (split "=" prop) as [|key [|value [|x l]]] eqn:E.
  - left. split; auto. intros (k & v & Hk & _). apply parts_unique in Hk. congruence.
  - left. split; auto. intros (k & v & Hk & _). apply parts_unique in Hk. congruence.
  - destruct (String.eqb_spec (trim_space key) "position") as [Ek|Ek]; cbn [negb].
    2:{ left. split; auto. intros (k & v & Hk & Hv). apply parts_unique in Hk. rewrite E in Hk. injection Hk as -> ->. auto. }
    assert (Hi : is_position prop) by (exists key, value; auto). right. pose proof (split_parts "," (trim_parens (trim_space value))) as Hq.
    assert (Hu : forall k' v', parts_of "=" prop [k'; v'] -> k' = key /\ v' = value). { intros k' v' H'. apply parts_unique in H'. rewrite E in H'. injection H' as -> ->. auto. }
    destruct (split "," (trim_parens (trim_space value))) as [|a [|b [|c l]]] eqn:Es.
    + right. eexists. split; [reflexivity|]. split; auto. intros p (k & v & a & b & x & y & H1 & _ & H2 & _). destruct (Hu _ _ H1) as [-> ->]. apply parts_unique in H2. congruence.
    + right. eexists. split; [reflexivity|]. split; auto. intros p (k & v & a' & b & x & y & H1 & _ & H2 & _). destruct (Hu _ _ H1) as [-> ->]. apply parts_unique in H2. congruence.
    + destruct (atoi (trim_space a)) as [x|e|p] eqn:Ea.
      * cbn [gbind]. destruct (atoi (trim_space b)) as [y|e|p] eqn:Eb.
        -- left. cbn [gbind]. eexists. split; [reflexivity|]. split; auto. apply atoi_ok in Ea, Eb. exists key, value, a, b, x, y. auto 10.
        -- right. cbn [gbind]. eexists. split; [reflexivity|]. split; auto. intros p (k & v & a' & b' & x' & y' & H1 & _ & H2 & _ & H3 & _). destruct (Hu _ _ H1) as [-> ->]. apply parts_unique in H2. rewrite Es in H2. injection H2 as -> ->. apply atoi_ok in H3. congruence.
        -- exfalso. eapply atoi_not_panic; eauto.
      * right. cbn [gbind]. eexists. split; [reflexivity|]. split; auto. intros p (k & v & a' & b' & x' & y' & H1 & _ & H2 & H3 & _). destruct (Hu _ _ H1) as [-> ->]. apply parts_unique in H2. rewrite Es in H2. injection H2 as -> ->. apply atoi_ok in H3. congruence.
      * exfalso. eapply atoi_not_panic; eauto.
    + right. eexists. split; [reflexivity|]. split; auto. intros p (k & v & a' & b' & x & y & H1 & _ & H2 & _). destruct (Hu _ _ H1) as [-> ->]. apply parts_unique in H2. congruence.
  - left. split; auto. intros (k & v & Hk & _). apply parts_unique in Hk. congruence.
Qed.
Lemma position_text_unique s p q : position_text s p -> position_text s q -> p = q.
Proof.
  intros (k & v & a & b & x & y & H1 & _ & H2 & H3 & H4 & ->) (k' & v' & a' & b' & x' & y' & G1 & _ & G2 & G3 & G4 & ->).
  apply parts_unique in H1, G1. rewrite <- H1 in G1. injection G1 as -> ->. apply parts_unique in H2, G2. rewrite <- H2 in G2. injection G2 as -> ->.
  apply atoi_ok in H3, H4, G3, G4. congruence.
Qed.
Lemma position_text_is s p : position_text s p -> is_position s.
Proof. intros (k & v & a & b & x & y & H1 & H2 & _). exists k, v. auto. Qed.
Lemma foldM_snoc {S X} (f : S -> X -> gores S) l x : forall s, foldM f s (l ++ [x]) = (let! s' := foldM f s l in f s' x).
Proof. induction l as [|y l IH]; intros s; simpl. - destruct (f s x); auto. - destruct (f s y); simpl; auto. Qed.

Lemma parse_position_cases props : (exists p, parse_position props = Ok p /\ position_of props p) \/
  (exists e prop, parse_position props = Err e /\ In prop props /\ is_position prop /\ forall p, ~ position_text prop p).
Proof.
  change (parse_position props) with (foldM pos_step (0, 0) props). induction props as [|s l IH] using rev_ind; [left; exists (0, 0); split; auto; constructor|].
  rewrite foldM_snoc. destruct IH as [(p & -> & Hp)|(e & prop & -> & Hin & H)].
  - cbn [gbind]. destruct (pos_step_cases p s) as [(E & H)|[(p' & E & H & _)|(e & E & H1 & H2)]].
    + left. exists p. split; auto. apply pos_skip; auto.
    + left. exists p'. split; auto. apply (pos_last l s p p'); auto.
    + right. exists e, s. split; auto. split; auto. apply in_or_app. simpl. auto.
  - right. exists e, prop. cbn [gbind]. split; auto. split; auto. apply in_or_app. auto.
Qed.
Lemma position_of_ok props p : position_of props p -> parse_position props = Ok p.
Proof.
  change (parse_position props) with (foldM pos_step (0, 0) props). induction 1 as [|props s p H IH Hn|props s p p' H IH Hs]; auto; rewrite foldM_snoc, IH; cbn [gbind].
  - destruct (pos_step_cases p s) as [(E & _)|[(p' & _ & _ & F)|(e & _ & F & _)]]; auto; tauto.
  - destruct (pos_step_cases p s) as [(_ & F)|[(q & E & F & _)|(e & _ & _ & F)]].
    + exfalso. apply F. eapply position_text_is; eauto.
    + rewrite E. f_equal. eapply position_text_unique; eauto.
    + exfalso. eapply F; eauto.
Qed.
Lemma position_bad props prop : In prop props -> is_position prop -> (forall p, ~ position_text prop p) -> exists e, parse_position props = Err e.
Proof.
  intros Hin Hi Hb. destruct (parse_position_cases props) as [(p & _ & H)|(e & prop' & E & _)]; eauto. exfalso. induction H as [|props s p H IH Hn|props s p p' H IH Hs]; [destruct Hin| |];
    apply in_app_or in Hin; destruct Hin as [Hin|[->|[]]]; auto. eapply Hb; eauto.
Qed.

(** ** Documents *)
Section X.
Context {A : Type} {N : NumOps A}.
Variable parse_float : string -> option A.

Definition defs_map (l : list xdef) : list (string * xdef) := fold_left (fun m x => mset String.eqb m (x_for x) x) l [].
Lemma defs_map_snoc l x : defs_map (l ++ [x]) = mset String.eqb (defs_map l) (x_for x) x.
Proof. unfold defs_map. rewrite fold_left_app. auto. Qed.
Lemma defs_lookup d x : match mget String.eqb (defs_map (xd_defs d)) x with
  | Some def => definition_for d x def
  | None => forall def, In def (xd_defs d) -> x_for def <> x
  end.
Proof.
  unfold definition_for. induction (xd_defs d) as [|e l IH] using rev_ind; [simpl; auto|]. rewrite defs_map_snoc. destruct (String.eqb_spec x (x_for e)) as [->|Hne].
  - rewrite (mget_mset_same _ String.eqb_eq). exists l, []. split; auto.
  - rewrite (mget_mset_other _ String.eqb_eq) by auto. destruct (mget String.eqb (defs_map l) x) as [def|].
    + destruct IH as (l1 & l2 & -> & H1 & H2). exists l1, (l2 ++ [e]). rewrite <- app_assoc. split; auto. split; auto. intros y Hy. apply in_app_or in Hy. destruct Hy as [Hy|[<-|[]]]; auto.
    + intros def Hd. apply in_app_or in Hd. destruct Hd as [Hd|[<-|[]]]; auto.
Qed.
Lemma definition_unique d x a b : definition_for d x a -> definition_for d x b -> a = b.
Proof.
  intros (l1 & l2 & E & H1 & H2) (m1 & m2 & F & G1 & G2). rewrite E in F. clear E. revert m1 F. induction l1 as [|y l1 IH]; intros m1 F.
  - destruct m1 as [|z m1]; simpl in F; injection F; auto. intros -> ->. exfalso. apply (H2 b); auto. apply in_or_app. simpl; auto.
  - destruct m1 as [|z m1]; simpl in F; injection F.
    + intros <- ->. exfalso. apply (G2 a); auto. apply in_or_app. simpl; auto.
    + intros Q ->. apply (IH m1). auto.
Qed.
Lemma definition_lookup d x def : definition_for d x def -> mget String.eqb (defs_map (xd_defs d)) x = Some def.
Proof.
  intros H. pose proof (defs_lookup d x) as L. destruct (mget _ _ _) as [def'|]; [f_equal; eapply definition_unique; eauto|].
  destruct H as (l1 & l2 & E & H1 & _). exfalso. apply (L def); auto. rewrite E. apply in_or_app. simpl; auto.
Qed.

Definition read_value (w : string) : gores A := match parse_float w with Some x => Ok x | None => Err (EMsg "error parsing table value") end.
Lemma values_cases ws : (exists l, mapM read_value ws = Ok l /\ Forall2 (fun w x => parse_float w = Some x) ws l) \/ (exists e w, mapM read_value ws = Err e /\ In w ws /\ parse_float w = None).
Proof.
  induction ws as [|w ws IH]; simpl; [left; exists []; auto|]. unfold read_value at 1 3. destruct (parse_float w) as [x|] eqn:E.
  - cbn [gbind]. destruct IH as [(l & -> & H)|(e & w' & -> & H1 & H2)]; cbn [gbind]; [left; exists (x :: l); auto|right; exists e, w'; auto].
  - right. cbn [gbind]. eexists _, w. auto.
Qed.
Lemma values_ok ws l : Forall2 (fun w x => parse_float w = Some x) ws l -> mapM read_value ws = Ok l.
Proof. induction 1; simpl; auto. unfold read_value at 1. rewrite H. cbn [gbind]. rewrite IHForall2. auto. Qed.
Lemma values_bad ws w : In w ws -> parse_float w = None -> exists e, mapM read_value ws = Err e.
Proof.
  intros Hin Hw. destruct (values_cases ws) as [(l & _ & H)|(e & w' & E & _)]; eauto. exfalso. induction H; [destruct Hin|]. destruct Hin as [->|Hin]; auto. congruence.
Qed.
Lemma divides_rem m c : (0 < c)%nat -> (Z.rem (Z.of_nat m) (Z.of_nat c) = 0 <-> exists r, m = (r * c)%nat).
Proof.
  intros Hc. split.
  - intros H. apply Z.rem_divide in H; [|lia]. destruct H as (z & Hz). exists (Z.to_nat z). nia.
  - intros (r & ->). rewrite Nat2Z.inj_mul. apply Z.rem_mul. lia.
Qed.

Notation node d := (xml_node parse_float (defs_map (xd_defs d))).
Lemma length_check ws (outs : list string) : ((0 <? zlen outs) && negb (Z.rem (zlen ws) (zlen outs) =? 0) = true /\ outs <> [] /\ forall r, List.length (A := string) ws <> (r * List.length outs)%nat) \/
  ((0 <? zlen outs) && negb (Z.rem (zlen ws) (zlen outs) =? 0) = false /\ (outs <> [] -> exists r, List.length ws = (r * List.length outs)%nat)).
Proof.
  rewrite zlen_pos. destruct outs as [|o outs]; [right; split; auto; tauto|]. set (outs' := o :: outs). assert (Hc : (0 < List.length outs')%nat) by (simpl; lia). unfold zlen.
  pose proof (divides_rem (List.length ws) (List.length outs') Hc) as Hd. destruct (Z.eqb_spec (Z.rem (Z.of_nat (List.length ws)) (Z.of_nat (List.length outs'))) 0) as [E|E].
  - right. split; auto. intros _. apply Hd. auto.
  - left. split; auto. split; [discriminate|]. intros r Hr. apply E, Hd. eauto.
Qed.

Lemma xml_node_cases d v : (exists p, node d v = Ok p /\ xml_input parse_float d v p) \/ (exists e, node d v = Err e /\ xml_faulty parse_float d v) \/ (node d v = Panic PNil /\ undefined d v).
Proof.
  unfold xml_node. pose proof (defs_lookup d (x_name v)) as L. destruct (mget _ _ (x_name v)) as [def|]; [|right; right; auto].
  destruct (length_check (fields (x_table def)) (x_outcomes v)) as [(-> & H1 & H2)|(-> & H1)].
  - right. left. eexists. split; [reflexivity|]. apply (x_bad_length _ d v def); auto.
  - destruct (parse_position_cases (x_props v)) as [(p & -> & Hp)|(e & prop & -> & Hin & Hi & Hb)]; cbn [gbind].
    2:{ right. left. eexists. split; [reflexivity|]. apply (x_bad_position _ d v prop); auto. }
    destruct (mget String.eqb node_types (x_type v)) as [t|] eqn:Et.
    2:{ right. left. eexists. split; [reflexivity|]. apply x_bad_type. apply type_unknown. auto. }
    apply type_lookup in Et. rewrite zlen_pos. change (mapM _ (fields (x_table def))) with (mapM read_value (fields (x_table def))).
    destruct (values_cases (fields (x_table def))) as [(l & E & H)|(e & w & E & Hin & Hw)].
    + left. rewrite E. assert (Hlen : List.length l = List.length (fields (x_table def))) by (clear - H; induction H; simpl; auto). cbn [gbind].
      exists (mkNVar (x_name v) t (x_outcomes v) p "" None, mkNFactor (x_name v) (x_given def) (match l with [] => None | _ => Some l end) [] 0). split.
      * destruct (fields (x_table def)); destruct l; try discriminate; auto.
      * exists def, t, p, l. rewrite Hlen. auto 10.
    + right. left. destruct (fields (x_table def)) as [|w0 ws] eqn:Ef; [destruct Hin|]. rewrite E. cbn [gbind]. eexists. split; [reflexivity|]. apply (x_bad_value _ d v def w); auto. rewrite Ef. auto.
Qed.
Lemma xml_input_ok d v p : xml_input parse_float d v p -> node d v = Ok p.
Proof.
  intros (def & t & pos & l & Hd & Ht & Hp & Hv & Hl & ->). unfold xml_node. rewrite (definition_lookup _ _ _ Hd). assert (Hlen : List.length (fields (x_table def)) = List.length l) by (clear - Hv; induction Hv; simpl; auto).
  destruct (length_check (fields (x_table def)) (x_outcomes v)) as [(_ & H1 & H2)|(-> & _)].
  - exfalso. destruct (Hl H1) as (r & Hr). apply (H2 r). lia.
  - rewrite (position_of_ok _ _ Hp). cbn [gbind]. apply type_lookup in Ht. rewrite Ht. rewrite zlen_pos. change (mapM _ (fields (x_table def))) with (mapM read_value (fields (x_table def))). rewrite (values_ok _ _ Hv). cbn [gbind].
    destruct (fields (x_table def)); destruct l; try discriminate; auto.
Qed.
Lemma xml_nodes_ok d l ps : Forall2 (xml_input parse_float d) l ps -> mapM (node d) l = Ok ps.
Proof. induction 1 as [|v p l ps H _ IH]; auto. cbn [mapM]. rewrite (xml_input_ok _ _ _ H). cbn [gbind]. rewrite IH. auto. Qed.
Lemma xml_faulty_err d v : ~ undefined d v -> xml_faulty parse_float d v -> exists e, node d v = Err e.
Proof.
  intros Hu F. destruct (xml_node_cases d v) as [(p & _ & (def & t & pos & l & Hd & Ht & Hp & Hv & Hl & _))|[(e & E & _)|(_ & U)]]; eauto; [|tauto].
  exfalso. destruct F as [F|def' F1 F2 F3|prop F1 F2 F3|def' w F1 F2 F3].
  - apply (F t); auto.
  - pose proof (definition_unique _ _ _ _ Hd F1). subst def'. destruct (Hl F2) as (r & Hr). apply (F3 r). rewrite <- Hr. clear - Hv. induction Hv; simpl; auto.
  - destruct (position_bad _ _ F1 F2 F3) as (e & E). rewrite (position_of_ok _ _ Hp) in E. discriminate.
  - pose proof (definition_unique _ _ _ _ Hd F1). subst def'. destruct (values_bad _ _ F2 F3) as (e & E). rewrite (values_ok _ _ Hv) in E. discriminate.
Qed.
Lemma xml_undefined d v : undefined d v -> node d v = Panic PNil.
Proof.
  intros U. unfold xml_node. pose proof (defs_lookup d (x_name v)) as L. destruct (mget _ _ (x_name v)) as [def|]; auto. destruct L as (l1 & l2 & E & H & _). exfalso. apply (U def); auto. rewrite E. apply in_or_app. simpl; auto.
Qed.

Theorem from_xml_cases d : 
  (exists ps, Forall2 (xml_input parse_float d) (xd_vars d) ps /\ from_xml parse_float d = net_new (xd_name d) "" (map fst ps) (map snd ps)) \/
  (exists l1 v l2, xd_vars d = l1 ++ v :: l2 /\ (forall w, In w l1 -> exists p, xml_input parse_float d w p) /\
     ((undefined d v /\ from_xml parse_float d = Panic PNil) \/ (xml_faulty parse_float d v /\ exists e, from_xml parse_float d = Err e))).
Proof.
  unfold from_xml. fold (defs_map (xd_defs d)). 
  assert (G : forall l, (exists ps, Forall2 (xml_input parse_float d) l ps /\ mapM (node d) l = Ok ps) \/
    (exists l1 v l2, l = l1 ++ v :: l2 /\ (forall w, In w l1 -> exists p, xml_input parse_float d w p) /\ ((undefined d v /\ mapM (node d) l = Panic PNil) \/ (xml_faulty parse_float d v /\ exists e, mapM (node d) l = Err e)))).
  { induction l as [|v l IH]; [left; exists []; auto|]. cbn [mapM]. destruct (xml_node_cases d v) as [(p & E & H)|[(e & E & H)|(E & H)]]; rewrite E; cbn [gbind].
    - destruct IH as [(ps & H1 & ->)|(l1 & w & l2 & -> & H1 & H2)]; [left; exists (p :: ps); cbn [gbind]; auto|].
      right. exists (v :: l1), w, l2. split; auto. split; [intros x [<-|Hx]; eauto|]. destruct H2 as [(U & ->)|(F & e & ->)]; cbn [gbind]; eauto.
    - right. exists [], v, l. split; auto. split; [intros w []|]. right. eauto.
    - right. exists [], v, l. split; auto. split; [intros w []|]. left. auto. }
  destruct (G (xd_vars d)) as [(ps & H & ->)|(l1 & v & l2 & E & H1 & H2)]; [left; exists ps; auto|]. right. exists l1, v, l2. split; auto. split; auto.
  destruct H2 as [(U & ->)|(F & e & ->)]; cbn [gbind]; eauto.
Qed.

Lemma xml_never_bare d ps : Forall2 (xml_input parse_float d) (xd_vars d) ps -> forall p, net_new (xd_name d) "" (map fst ps) (map snd ps) <> Panic p.
Proof.
  intros H p E. assert (Hshape : forall q, In q ps -> nv_factor (fst q) = None /\ nf_for (snd q) = nv_name (fst q)).
  { intros q Hq. clear E. induction H as [|v q' l ps (def & t & pos & l0 & _ & _ & _ & _ & _ & ->) _ IH]; [destruct Hq|]. destruct Hq as [<-|Hq]; auto. }
  destruct (new_api (xd_name d) "" (map fst ps) (map snd ps)) as (_ & Hp & _).
  - intros v Hv. apply in_map_iff in Hv. destruct Hv as (q & <- & Hq). apply Hshape; auto.
  - destruct (Hp p E) as (v & Hv & _ & Hf). apply in_map_iff in Hv. destruct Hv as (q & <- & Hq). destruct (Hshape q Hq) as (_ & Hn). unfold factor_for in Hf.
    pose proof (find_none _ _ Hf (snd q) (in_map snd _ _ Hq)) as F. simpl in F. rewrite Hn, String.eqb_refl in F. discriminate.
Qed.
End X.
