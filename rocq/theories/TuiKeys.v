(** The terminal application: which node, outcome and page each event selects. *)
From Coq Require Import ZArith List Bool String Lia QArith Qcanon.
From Verif Require Import Num GoBase VarModel GoFacts Tuples SpecFactor XnumFacts VEModel SpecVE NetModel SpecNet NetNew NetVars
  SpecNetPolicy CliModel DocModel TuiModel SpecTui SpecApp TuiGrid TuiDraw TuiCanvas TuiApp TuiTable TuiEvents TuiSession TuiStart TuiTwice TuiMore.
From Verif Require LogicFacts.
Import ListNotations.
Open Scope string_scope.
Open Scope list_scope.
Open Scope Z_scope.

Ltac unbind H := repeat (cbn [gbind] in H; cbv beta iota zeta in H;
  match type of H with
  | gbind ?e _ = Ok _ => let E := fresh "E" in destruct e eqn:E; cbn [gbind] in H; [|discriminate H|discriminate H]
  | (let '(_, _) := ?p in _) = Ok _ => let P := fresh "P" in destruct p eqn:P
  | (if ?c then _ else _) = Ok _ => let C := fresh "C" in destruct c eqn:C
  end).

(** What drawing and solving leave as it is. *)
Record quiet (a b : app) : Prop := {
  qu_selected : a_selected b = a_selected a;
  qu_state : a_state b = a_state a;
  qu_page : a_page b = a_page a;
  qu_running : a_running b = a_running a;
  qu_saved : a_saved b = a_saved a;
  qu_ignore : a_ignore b = a_ignore a
}.
Lemma quiet_refl a : quiet a a. Proof. split; reflexivity. Qed.
Lemma quiet_trans a b c : quiet a b -> quiet b c -> quiet a c.
Proof. intros [] []. split; congruence. Qed.

Lemma render_quiet u a b : render u a = Ok b -> quiet a b.
Proof.
  unfold render, render_nodes, update_canvas. intros H.
  destruct u; unbind H; injection H as <-.
  - unbind E. injection E as <-. split; reflexivity.
  - unbind E. injection E as <-. unbind E0. injection E0 as <-. split; reflexivity.
Qed.
Lemma marginals_quiet scs a b r : update_marginals scs a = (b, r) -> quiet a b.
Proof.
  unfold update_marginals. destruct tui_solve as [n [m|e|p]]; intros H; injection H as <- _; split; reflexivity.
Qed.
Lemma enter_quiet scs a b : input_enter scs a = Ok b -> quiet a b.
Proof.
  unfold input_enter, must. intros H. unbind H.
  - injection H as <-. apply quiet_refl.
  - destruct update_marginals as [b' r] eqn:U. apply marginals_quiet in U. cbn [fst snd] in H. destruct r; [|discriminate H..].
    injection H as <-. eapply quiet_trans; [|exact U]. split; reflexivity.
Qed.
Lemma toggle_quiet scs a b : toggle_ignore_policy scs a = Ok b -> quiet (set_ignore a (negb (a_ignore a))) b.
Proof.
  unfold toggle_ignore_policy. destruct update_marginals as [b' r] eqn:U. apply marginals_quiet in U. intros H.
  eapply quiet_trans; [exact U|].
  destruct r; [| |discriminate H]; exact (render_quiet _ _ _ H).
Qed.
Lemma create_quiet a b : create_canvas a = Ok b -> quiet a b.
Proof. unfold create_canvas. intros H. unbind H. injection H as <-. split; reflexivity. Qed.
Lemma move_quiet r a b : move_node r a = Ok b -> quiet a b.
Proof.
  unfold move_node. intros H. unbind H; [|injection H as <-; apply quiet_refl].
  apply render_quiet in H. eapply quiet_trans; [|exact H].
  match goal with E : (if ?c then create_canvas _ else _) = Ok _ |- _ => destruct c; [apply create_quiet in E|injection E as <-]; [destruct E; split; assumption|split; reflexivity] end.
Qed.
Lemma table_quiet a b : show_table a = Ok b -> a_selected b = a_selected a /\ a_state b = a_state a /\ a_page b = PTable /\ a_running b = a_running a /\ a_saved b = a_saved a.
Proof. unfold show_table. intros H. unbind H; injection H as <-; repeat split. Qed.
Lemma save_quiet a b : save_network a = Ok b -> a_selected b = a_selected a /\ a_state b = a_state a /\ a_page b = a_page a /\ a_running b = a_running a /\ exists d, a_saved b = Some d.
Proof. unfold save_network. intros H. destruct to_yaml; [|discriminate H..]. injection H as <-. repeat split. eexists. reflexivity. Qed.

(** The number and the node at a point. *)
Lemma find_number {X} (p : X -> bool) (l : list X) : forall pre,
  match find (fun '((i, t) : Z * X) => p t) (combine (zrange (zlen pre) (zlen pre + zlen l)) l) with
  | Some (i, t) => exists k, find (fun i => match nth_error (pre ++ l) i with Some t => p t | None => false end) (seq (List.length pre) (List.length l)) = Some k /\
      Z.of_nat k = i /\ find p l = Some t
  | None => find (fun i => match nth_error (pre ++ l) i with Some t => p t | None => false end) (seq (List.length pre) (List.length l)) = None /\ find p l = None
  end.
Proof.
  induction l as [|x l IH]; intros pre.
  - rewrite LogicFacts.zrange_empty by (unfold zlen; cbn; lia). cbn. auto.
  - assert (E : zlen (x :: l) = 1 + zlen l) by (unfold zlen; cbn [List.length]; lia).
    rewrite zrange_cons by (unfold zlen in *; lia). cbn [combine find List.length seq].
    rewrite nth_error_app2, Nat.sub_diag by lia. cbn [nth_error].
    destruct (p x) eqn:P.
    + exists (List.length pre). unfold zlen. auto.
    + specialize (IH (pre ++ [x])).
      replace (zlen (pre ++ [x])) with (zlen pre + 1) in IH by (unfold zlen; rewrite app_length; cbn [List.length]; lia).
      rewrite E. replace (zlen pre + (1 + zlen l)) with (zlen pre + 1 + zlen l) by lia.
      rewrite app_length, <- app_assoc in IH. cbn [List.length List.app] in IH. rewrite Nat.add_1_r in IH. exact IH.
Qed.
Lemma contains_inside b x y : b_contains b x y = inside b x y.
Proof.
  apply eq_iff_eq_true. unfold b_contains, inside. rewrite !andb_true_iff, !Z.leb_le, !Z.ltb_lt. lia.
Qed.
Lemma found_under a x y :
  match find (fun '((i, t) : Z * tnode) => b_contains (t_bounds t) x y) (combine (zrange 0 (zlen (a_nodes a))) (a_nodes a)) with
  | Some (i, t) => exists k, number_under a x y = Some k /\ Z.of_nat k = i /\ node_under a x y = Some t
  | None => number_under a x y = None /\ node_under a x y = None
  end.
Proof.
  pose proof (find_number (fun t => inside (t_bounds t) x y) (a_nodes a) []) as F. cbn [List.app List.length] in F.
  change (zlen (@nil tnode)) with 0 in F. rewrite Z.add_0_l in F.
  exact F.
Qed.
Lemma row_under t x y : inside (t_bounds t) x y = true ->
  selected_outcome t x y = let k := y - b_y (t_bounds t) - 2 in if (0 <=? k) && (k <? zlen (t_outcomes t)) then Some k else None.
Proof.
  intros Hi. unfold selected_outcome. rewrite contains_inside, Hi. cbn [negb]. cbv zeta. set (k := y - b_y (t_bounds t) - 2).
  destruct find as [i|] eqn:F.
  - apply find_some in F. destruct F as [Hin E]. apply in_zrange in Hin. apply Z.eqb_eq in E.
    assert (k = i) as -> by lia. rewrite (proj2 (Z.leb_le _ _)), (proj2 (Z.ltb_lt _ _)) by lia. reflexivity.
  - destruct ((0 <=? k) && (k <? zlen (t_outcomes t))) eqn:B; [|reflexivity].
    rewrite andb_true_iff, Z.leb_le, Z.ltb_lt in B. exfalso.
    assert (In k (zrange 0 (zlen (t_outcomes t)))) as Hin by (apply in_zrange; lia).
    pose proof (find_none _ _ F _ Hin) as N. cbn in N. apply Z.eqb_neq in N. lia.
Qed.

Section Keys.
Variables (n : network xnum) (ev : list (string * string)).
Hypothesis Hso : solvable n.
Hypothesis Hsw : showable n.
Hypothesis Hev : valid_observations n ev.
Variable other_digit : Z -> bool.
Variable scp : sched.
Notation reached := (reached other_digit scp n ev).

Definition outcome_of (a : app) (e : event) (b : app) : Prop :=
  (a_selected b, a_state b) = new_selection a e /\ a_page b = new_page a e /\ a_running b = still_running a e /\
  (listening a = true /\ e = Press KCtrlS \/ a_saved b = a_saved a).
Lemma steps_kept a : reached a -> 0 <= a_selected a < zlen (a_nodes a) /\ 0 <= a_state a /\
  exists t, nth_error (a_nodes a) (Z.to_nat (a_selected a)) = Some t /\ sget (a_nodes a) (a_selected a) = Ok t /\ selected_node a = Some t.
Proof.
  intros R. destruct (reached_ok n ev Hso Hsw Hev other_digit scp a R) as (n' & tables & S).
  pose proof (rs_ok _ _ _ _ _ S) as Ho. pose proof (ao_core _ _ Ho) as Hc.
  split; [apply (co_selected _ _ Hc)|]. split; [apply (co_state _ _ Hc)|].
  destruct (selected_get n' (rs_linked _ _ _ _ _ S) a Hc) as (t & v & Et & Es & Ht & _). exists t. auto.
Qed.

Lemma step_keys scs a e b : reached a -> handle other_digit scs e a = Ok b -> outcome_of a e b.
Proof.
  intros R H. destruct (steps_kept a R) as (Hi & Hs & t & Ht & Et & Es).
  unfold handle in H. unfold outcome_of, new_selection, new_page, still_running.
  destruct (a_running a) eqn:Hrun; cbn [negb] in H.
  2:{ injection H as <-. unfold listening. rewrite Hrun. cbn [andb]. auto. }
  destruct (a_page a) eqn:Hp.
  2-4: unfold listening; rewrite Hp, Hrun; cbn [andb negb]; destruct e as [k|x y|x y]; [destruct k|..]; injection H as <-; repeat split; auto.
  assert (Hl : listening a = true) by (unfold listening; rewrite Hrun, Hp; reflexivity).
  rewrite Hl. cbn [andb].
  destruct e as [k|x y|x y].
  - destruct k as [| | | | | |r]; cbn [input_main] in H.
    + injection H as <-. repeat split; auto.
    + unfold select_next_node in H. destruct (zlen (a_nodes a) =? 0) eqn:Z0; [discriminate H|]. apply render_quiet in H. destruct H as [H1 H2 H3 H4 H5 _].
      cbn in H1, H2, H3, H4, H5. rewrite H1, H2, H3, H4, H5. rewrite Z.rem_mod_nonneg by lia. auto.
    + unfold select_previous_node in H. apply render_quiet in H. destruct H as [H1 H2 H3 H4 H5 _].
      cbn in H1, H2, H3, H4, H5. rewrite H1, H2, H3, H4, H5. repeat split; auto. f_equal.
      destruct (a_selected a - 1 <? 0) eqn:B.
      * apply (Z.mod_unique _ _ (-1)); lia.
      * symmetry. apply Z.mod_small. lia.
    + unbind H. apply enter_quiet in E. apply render_quiet in H. destruct (quiet_trans _ _ _ E H) as [H1 H2 H3 H4 H5 _]. rewrite H1, H2, H3, H4, H5. auto.
    + apply save_quiet in H. destruct H as (H1 & H2 & H3 & H4 & d & H5). rewrite H1, H2, H3, H4. repeat split; auto.
    + apply move_quiet in H. destruct H as [H1 H2 H3 H4 H5 _]. rewrite H1, H2, H3, H4, H5. auto.
    + rewrite Es. rewrite Et in H. cbn [gbind] in H.
      destruct (r =? rune " ") eqn:R1.
      { apply Z.eqb_eq in R1. subst r. cbn [Z.eqb]. destruct (zlen (t_outcomes t) =? 0) eqn:Z0; [discriminate H|]. apply render_quiet in H. destruct H as [H1 H2 H3 H4 H5 _].
        cbn in H1, H2, H3, H4, H5. rewrite H1, H2, H3, H4, H5.
        assert (0 < zlen (t_outcomes t)) by (assert (0 <= zlen (t_outcomes t)) by (unfold zlen; lia); lia).
        rewrite Z.rem_mod_nonneg by lia. auto. }
      destruct (is_digit other_digit r) eqn:D.
      { unfold select_node_outcome in H. destruct ((48 <=? r) && (r <=? 57)) eqn:A; [|discriminate H].
        rewrite andb_true_iff, !Z.leb_le in A.
        change (rune "1") with 49. change (rune "9") with 57. change (rune "0") with 48. change (rune "h") with 104. change (rune "i") with 105. change (rune "t") with 116.
        replace (r =? 104) with false by lia. replace (r =? 105) with false by lia. replace (r =? 116) with false by lia.
        destruct (0 <=? r - 48 - 1) eqn:A1.
        - rewrite Et in H. cbn [gbind] in H. change (nv_outcomes (t_var t)) with (t_outcomes t).
          replace (49 <=? r) with true by lia. replace (r <=? 57) with true by lia. cbn [andb].
          destruct (r - 48 - 1 <? zlen (t_outcomes t)) eqn:A2.
          + replace (r - 48 <=? zlen (t_outcomes t)) with true by lia. apply render_quiet in H. destruct H as [H1 H2 H3 H4 H5 _].
            cbn in H1, H2, H3, H4, H5. rewrite H1, H2, H3, H4, H5. repeat split; auto. f_equal; lia.
          + replace (r - 48 <=? zlen (t_outcomes t)) with false by lia. injection H as <-. auto.
        - injection H as <-. replace (49 <=? r) with false by lia. auto. }
      assert (N : (rune "1" <=? r) && (r <=? rune "9") = false).
      { apply not_true_is_false. rewrite andb_true_iff, !Z.leb_le. change (rune "1") with 49. change (rune "9") with 57. intros A.
        unfold is_digit in D. replace (r <=? 255) with true in D by lia. rewrite andb_false_iff, !Z.leb_gt in D. lia. }
      rewrite N. cbn [andb].
      destruct (r =? rune "h") eqn:K1; [injection H as <-; auto|].
      destruct (r =? rune "i") eqn:K2; [injection H as <-; auto|].
      destruct (r =? rune "t") eqn:K3. { apply table_quiet in H. destruct H as (H1 & H2 & H3 & H4 & H5). rewrite H1, H2, H3, H4, H5. auto. }
      destruct (r =? rune "p") eqn:K4.
      * apply toggle_quiet in H. destruct H as [H1 H2 H3 H4 H5 _]. rewrite H1, H2, H3, H4, H5. auto.
      * apply move_quiet in H. destruct H as [H1 H2 H3 H4 H5 _]. rewrite H1, H2, H3, H4, H5. auto.
  - unfold left_click in H. pose proof (found_under a x y) as F. destruct find as [[i u]|].
    + destruct F as (k & Fk & <- & Fu). rewrite Fk, Fu. pose proof (find_some _ _ Fu) as [_ Hin]. cbv beta in Hin. rewrite (row_under u x y Hin) in H. cbv zeta in H.
      change (nv_outcomes (t_var u)) with (t_outcomes u). cbv zeta. destruct ((0 <=? y - b_y (t_bounds u) - 2) && (y - b_y (t_bounds u) - 2 <? zlen (t_outcomes u))).
      * unbind H. apply enter_quiet in E. apply render_quiet in H. destruct (quiet_trans _ _ _ E H) as [H1 H2 H3 H4 H5 _]. cbn in H1, H2, H3, H4, H5. rewrite H1, H2, H3, H4, H5. auto.
      * cbn [gbind] in H. apply render_quiet in H. destruct H as [H1 H2 H3 H4 H5 _]. cbn in H1, H2, H3, H4, H5. rewrite H1, H2, H3, H4, H5. auto.
    + destruct F as [Fk Fu]. rewrite Fk. injection H as <-. auto.
  - unfold right_click in H. pose proof (found_under a x y) as F. destruct find as [[i u]|].
    + destruct F as (k & Fk & <- & Fu). rewrite Fk, Fu. unbind H. apply render_quiet in E. apply table_quiet in H. destruct H as (H1 & H2 & H3 & H4 & H5).
      destruct E as [G1 G2 G3 G4 G5 _]. cbn in G1, G2, G3, G4, G5. rewrite H1, H2, H3, H4, H5, G1, G2, G4, G5. auto.
    + destruct F as [Fk Fu]. rewrite Fk, Fu. injection H as <-. auto.
Qed.
(** Keys are not heard while a dialog is shown: only the page can change. *)
Lemma deaf scs a e b : listening a = false -> handle other_digit scs e a = Ok b -> b = set_page a (new_page a e).
Proof.
  unfold listening, handle, new_page. intros Hl H.
  assert (Hsame : set_page a (a_page a) = a) by (destruct a; reflexivity).
  destruct (a_running a); cbn [negb andb] in *; [|injection H as <-; auto].
  destruct (a_page a) eqn:Hp; [discriminate Hl|..]; destruct e as [[]| |]; injection H as <-; auto.
Qed.
(** A click selects the first of the nodes at the point. *)
Lemma find_seq (p : nat -> bool) m : forall s i, find p (seq s m) = Some i -> p i = true /\ (s <= i < s + m)%nat /\ forall j, (s <= j < i)%nat -> p j = false.
Proof.
  induction m as [|m IH]; intros s i E; [discriminate E|]. cbn [seq find] in E. destruct (p s) eqn:P.
  - injection E as <-. split; [auto|split; [lia|intros j Hj; lia]].
  - destruct (IH _ _ E) as (A & B & C). split; [auto|split; [lia|]]. intros j Hj. destruct (Nat.eq_dec j s) as [->|]; auto. apply C. lia.
Qed.
Lemma first_under a x y i : number_under a x y = Some i ->
  (exists t, nth_error (a_nodes a) i = Some t /\ inside (t_bounds t) x y = true) /\ forall j u, (j < i)%nat -> nth_error (a_nodes a) j = Some u -> inside (t_bounds u) x y = false.
Proof.
  unfold number_under. intros F. apply find_seq in F. destruct F as (P & B & C). split.
  - destruct nth_error as [t|]; [|discriminate P]. eauto.
  - intros j u Hj Eu. specialize (C j ltac:(lia)). rewrite Eu in C. exact C.
Qed.
Lemma some_under a x y i t : nth_error (a_nodes a) i = Some t -> inside (t_bounds t) x y = true -> exists k, number_under a x y = Some k /\ (k <= i)%nat.
Proof.
  intros Ht Hin. destruct (number_under a x y) as [k|] eqn:F.
  - exists k. split; auto. destruct (Nat.le_gt_cases k i) as [|Hlt]; auto. destruct (first_under _ _ _ _ F) as [_ N]. rewrite (N i t Hlt Ht) in Hin. discriminate Hin.
  - exfalso. unfold number_under in F. assert (Hi : In i (seq 0 (List.length (a_nodes a)))). { apply in_seq. assert (i < List.length (a_nodes a))%nat by (apply nth_error_Some; congruence). lia. }
    pose proof (find_none _ _ F _ Hi) as N. cbv beta in N. rewrite Ht, Hin in N. discriminate N.
Qed.
(** The node selected by a click on a point of node [i] is not one after it. *)
Lemma click_first scs a e x y b i t : reached a -> listening a = true -> e = LeftClick x y \/ e = RightClick x y -> handle other_digit scs e a = Ok b ->
  nth_error (a_nodes a) i = Some t -> inside (t_bounds t) x y = true ->
  a_selected b <= Z.of_nat i /\ ((forall j u, (j < i)%nat -> nth_error (a_nodes a) j = Some u -> inside (t_bounds u) x y = false) -> a_selected b = Z.of_nat i).
Proof.
  intros R Hl He H Ht Hin. destruct (step_keys scs a e b R H) as (E & _). destruct (some_under a x y i t Ht Hin) as (k & Fk & Hk).
  destruct (first_under _ _ _ _ Fk) as [(u & Hu & Hui) N].
  assert (Es : a_selected b = Z.of_nat k).
  { pose proof (found_under a x y) as F. destruct find as [[z w]|]; [|destruct F as [F _]; rewrite F in Fk; discriminate Fk].
    destruct F as (k' & Fk' & _ & Fw). unfold new_selection in E. rewrite Hl in E. destruct He as [-> | ->]; rewrite Fk in E; [rewrite Fw in E|]; injection E as -> _; reflexivity. }
  split; [lia|]. intros Hfirst. rewrite Es. f_equal. destruct (Nat.eq_dec k i) as [|Hne]; auto.
  rewrite (Hfirst k u ltac:(lia) Hu) in Hui. discriminate Hui.
Qed.
End Keys.

(** The start: nothing is ignored or saved, the first outcome of the first node is selected, and the text of the network is shown if there is one. *)
Lemma start_page n ev scs scp a : solvable n -> showable n -> valid_observations n ev -> app_run scs scp n ev = Ok a ->
  a_page a = (if String.eqb (n_info n) "" then PGraph else PInfo) /\ a_running a = true /\ a_selected a = 0 /\ a_state a = 0 /\ a_ignore a = false /\ a_saved a = None.
Proof.
  intros Hso Hsw Hev H. destruct (app_run_ok scs scp n ev Hso Hsw Hev) as (n' & tables & a1 & Ep & Hst & _).
  unfold app_run in H. rewrite Ep in H. unbind H. rewrite <- (sr_info _ _ _ Hst).
  match goal with P : update_marginals _ _ = _ |- _ => apply marginals_quiet in P; rename P into Q1 end.
  match goal with E : create_canvas _ = _ |- _ => apply create_quiet in E; rename E into Q2 end.
  match goal with E : render _ _ = _ |- _ => apply render_quiet in E; rename E into Q3 end.
  destruct (quiet_trans _ _ _ (quiet_trans _ _ _ Q1 Q2) Q3) as [H1 H2 H3 H4 H5 H6]. cbn in H1, H2, H3, H4, H5, H6.
  injection H as <-. destruct (String.eqb (n_info n') ""); cbn; auto 10.
Qed.
