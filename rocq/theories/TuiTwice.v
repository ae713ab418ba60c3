(** The terminal application: choosing an outcome twice, tables, and what sessions never change. *)
From Coq Require Import ZArith List Bool String Lia QArith Qcanon.
From Verif Require Import Num GoBase VarModel GoFacts Tuples SpecFactor XnumFacts VEModel SpecVE NetModel SpecNet NetNew NetVars NetFactors NetVE NetQuery NetMass NetExtra
  SpecNetPolicy CliModel DocModel TrainFacts TuiModel SpecTui SpecApp TuiSolve TuiMove TuiGrid TuiDraw TuiCanvas TuiApp TuiTable TuiEvents TuiSession TuiStart.
Import ListNotations.
Open Scope string_scope.
Open Scope list_scope.
Open Scope Z_scope.

Section Session.
Variable n : network xnum.
Hypothesis Hd : displayable n.
Hypothesis Hroom : roomy n.
Hypothesis Hlinked : forall v, In v (n_vars n) -> exists k f, nv_factor v = Some k /\ nth_error (n_factors n) k = Some f.
Variable other_digit : Z -> bool.
Notation app_ok := (app_ok n).
Notation handle := (handle other_digit).
Notation session := (session other_digit).

(** ** Choosing twice *)
Lemma chosen_same a a' e : listening a' = listening a -> a_selected a' = a_selected a -> a_state a' = a_state a -> map t_var (a_nodes a') = map t_var (a_nodes a) -> map frame (a_nodes a') = map frame (a_nodes a) ->
  chosen a' e = chosen a e.
Proof.
  intros El Es Et HV HF. unfold chosen. rewrite El. destruct (listening a); auto. destruct e as [[]| |]; auto.
  - unfold selected_node. rewrite Es, Et. destruct (a_selected a <? 0); auto. pose proof (f_equal (fun l => nth_error l (Z.to_nat (a_selected a))) HV) as E. cbv beta in E. rewrite !nth_error_map in E.
    destruct (nth_error (a_nodes a') _), (nth_error (a_nodes a) _); try discriminate; auto. injection E as E. unfold outcome_at. rewrite E. auto.
  - assert (Eb : forall i t t', nth_error (a_nodes a) i = Some t -> nth_error (a_nodes a') i = Some t' -> t_bounds t' = t_bounds t /\ t_var t' = t_var t).
    { intros i t t' Ht Ht'. split; [apply (proj2 (frame_places a a' HF) i t t' Ht Ht')|]. pose proof (f_equal (fun l => nth_error l i) HV) as E. cbv beta in E. rewrite !nth_error_map, Ht, Ht' in E. cbn in E. congruence. }
    assert (El' : List.length (a_nodes a') = List.length (a_nodes a)) by (rewrite <- (map_length t_var), HV, map_length; auto).
    unfold node_under. revert Eb El'. clear. generalize (a_nodes a) (a_nodes a'). induction l as [|t l IH]; intros [|t' l'] Eb El; try discriminate; auto. cbn [find].
    destruct (Eb 0%nat t t' eq_refl eq_refl) as [E1 E2]. rewrite E1. destruct (inside (t_bounds t) x y).
    + unfold outcome_at. rewrite E1, E2. auto.
    + apply IH; [|cbn in El; congruence]. intros i. apply (Eb (S i)).
Qed.
Lemma chosen_again scs a e a' xo : app_ok a -> chosen a e = Some xo -> handle scs e a = Ok a' -> chosen a' e = Some xo.
Proof.
  intros Ho Hch E. pose proof (ao_core _ _ Ho) as Hc. pose proof (screen_update n a Ho) as Hu.
  assert (Hl : listening a = true) by (unfold chosen in Hch; destruct (listening a); auto; discriminate).
  assert (Hlist : forall a', a_running a' = a_running a -> a_page a' = a_page a -> listening a' = listening a) by (intros a1 E1 E2; unfold listening; rewrite E1, E2; auto).
  assert (Hrp : a_running a = true /\ a_page a = PGraph) by (unfold listening in Hl; rewrite andb_true_iff in Hl; destruct (a_page a); intuition congruence). destruct Hrp as [Hrun Hpage].
  unfold TuiModel.handle in E. rewrite Hrun, Hpage in E. cbn [negb] in E.
  assert (Hkey : forall i s t, 0 <= i < zlen (a_nodes a) -> 0 <= s -> nth_error (a_nodes a) (Z.to_nat i) = Some t -> is_utility (t_var t) = false -> s < zlen (t_outcomes t) ->
    (let! a := input_enter scs (set_selection a i s) in render true a) = Ok a' ->
    a_running a' = a_running a /\ a_page a' = a_page a /\ a_selected a' = i /\ a_state a' = s /\ map t_var (a_nodes a') = map t_var (a_nodes a) /\ map frame (a_nodes a') = map frame (a_nodes a)).
  { intros i s t Hi Hs Ht Hut Hz Er. pose proof (core_selection n a i s Hc Hi Hs) as Hc1. set (a1 := set_selection a i s) in *. destruct (node_in n a t Hc (nth_error_In _ _ Ht)) as (v & Hv & Hn).
    assert (Et : sget (a_nodes a1) (a_selected a1) = Ok t) by (cbn [a1 a_nodes a_selected set_selection]; rewrite <- (Z2Nat.id i) by lia; apply sget_ok; auto).
    destruct (nth_error (t_outcomes t) (Z.to_nat s)) as [o|] eqn:Eo; [|apply nth_error_None in Eo; unfold zlen in Hz; lia].
    destruct (enter_ok n Hd Hlinked scs a1 t v o Hc1 Hu Et Hv Hn Hut Eo) as (a2 & E2 & Hc2 & Hu2 & _ & _ & (R1 & R2 & R3 & R4 & R5 & R6 & R7)). rewrite E2 in Er. cbn [gbind] in Er.
    destruct (render_again n Hd Hroom a2 Hc2 Hu2) as (a3 & E3 & _ & F1 & F2 & F3 & F4 & F5 & F6 & F7 & F8 & HV & HF). assert (a3 = a') by congruence. subst a3.
    subst a1. cbn [a_running a_page a_selected a_state a_nodes set_selection] in *. repeat split; congruence. }
  destruct e as [k|x y|x y]; [destruct k; try (unfold chosen in Hch; rewrite Hl in Hch; discriminate)| |unfold chosen in Hch; rewrite Hl in Hch; discriminate].
  - destruct (selected_get n Hlinked a Hc) as (t & v & Et & Es & Ht & Hv & Hn). pose proof (co_selected _ _ Hc) as Hi. pose proof (co_state _ _ Hc) as Hs.
    unfold chosen in Hch. rewrite Hl, Es in Hch. destruct (is_utility (t_var t)) eqn:Hut; [rewrite row_utility in Hch by auto; discriminate|]. rewrite (row_outcome other_digit) in Hch by auto.
    destruct (nth_error (t_outcomes t) (Z.to_nat (a_state a))) as [o|] eqn:Eo; [|discriminate]. injection Hch as <-.
    assert (Hz : a_state a < zlen (t_outcomes t)). { assert (Z.to_nat (a_state a) < List.length (t_outcomes t))%nat by (apply nth_error_Some; congruence). unfold zlen. lia. }
    assert (Ea : set_selection a (a_selected a) (a_state a) = a) by (destruct a; reflexivity).
    destruct (Hkey (a_selected a) (a_state a) t Hi Hs Ht Hut Hz) as (A & B & C & D & V & F); [rewrite Ea; exact E|].
    rewrite (chosen_same a a') by auto. unfold chosen. rewrite Hl, Es, (row_outcome other_digit), Eo by auto. auto.
  - pose proof Hch as Hch0. unfold chosen in Hch. rewrite Hl in Hch. cbn [left_click] in E. unfold left_click in E. pose proof (find_numbered (fun t => b_contains (t_bounds t) x y) (a_nodes a)) as F. cbv beta in F. unfold node_under in Hch. change (fun t => inside (t_bounds t) x y) with (fun t => b_contains (t_bounds t) x y) in Hch.
    destruct (find _ (combine _ _)) as [[i t]|]; [|rewrite F in Hch; discriminate]. destruct F as (Hi & Ht & Hf). rewrite Hf in Hch. pose proof (find_some _ _ Hf) as [_ Hin]. change (inside (t_bounds t) x y = true) in Hin.
    destruct (is_utility (t_var t)) eqn:Hut; [rewrite row_utility in Hch by auto; discriminate|]. pose proof (outcome_row other_digit t x y Hin Hut) as R. destruct (selected_outcome t x y) as [o|].
    + destruct R as [R1 R2]. destruct (Hkey i o t Hi (proj1 R1) Ht Hut (proj2 R1) E) as (A & B & C & D & V & Fr). destruct (node_in n a t Hc (nth_error_In _ _ Ht)) as (v & Hv & Hn).
      unfold chosen. rewrite (Hlist a' A B), Hl. rewrite <- Hch0. unfold chosen. rewrite Hl.
      pose proof (chosen_same (set_selection a i o) a' (LeftClick x y)) as Q. unfold chosen in Q. rewrite (Hlist a' A B) in Q. change (listening (set_selection a i o)) with (listening a) in Q. rewrite Hl in Q. apply Q; auto.
    + exfalso. unfold outcome_at in Hch. destruct (nv_type (t_var t)); try discriminate; destruct (_ <? 0) eqn:E0; try discriminate; rewrite (proj2 (nth_error_None _ _)) in Hch; try discriminate; unfold zlen, t_outcomes in R; lia.
Qed.

(** ** What sessions never change *)
Lemma session_same : forall events a a', app_ok a -> session a events = Ok a' -> map t_var (a_nodes a') = map t_var (a_nodes a) /\ map t_factor (a_nodes a') = map t_factor (a_nodes a).
Proof.
  induction events as [|[e scs] events IH]; intros a a' Ho E; unfold TuiModel.session in *; cbn [foldM] in E; [injection E as <-; auto|].
  destruct (handle_step n Hd Hroom Hlinked other_digit scs e a Ho) as [(a1 & E1 & Hs & _)|[_ [p E1]]]; rewrite E1 in E; cbn [gbind] in E; [|discriminate].
  destruct (IH a1 a' (sd_ok _ _ _ _ Hs) E) as [H1 H2]. rewrite H1, H2. split; [apply (sd_vars _ _ _ _ Hs)|apply (sd_factors _ _ _ _ Hs)].
Qed.
End Session.

(** ** States reached *)
Section Reached.
Variables (n : network xnum) (ev : list (string * string)).
Hypothesis Hso : solvable n.
Hypothesis Hsw : showable n.
Hypothesis Hev : valid_observations n ev.
Variable other_digit : Z -> bool.
Variable scp : sched.

Record reached_state (n' : network xnum) (tables : list (string * nfactor xnum)) (a : app) : Prop := {
  rs_policies : net_solve_policies scp n true = (n', Ok tables);
  rs_started : started n n' tables;
  rs_display : displayable n';
  rs_roomy : roomy n';
  rs_linked : forall v, In v (n_vars n') -> exists k f, nv_factor v = Some k /\ nth_error (n_factors n') k = Some f;
  rs_ok : app_ok n' a;
  rs_vars : map t_var (a_nodes a) = n_vars n;
  rs_factors : Forall2 (fun v t => t_factor t = match sget_map tables (nv_name v) with Some p => Some p | None => own_factor n v end) (n_vars n) (a_nodes a)
}.
Lemma reached_ok a : reached other_digit scp n ev a -> exists n' tables, reached_state n' tables a.
Proof.
  intros (scs & a0 & events & E0 & E). destruct (app_run_ok scs scp n ev Hso Hsw Hev) as (n' & tables & a1 & Ep & Hst & Er & Ho & _ & _ & _ & _ & HV & _ & HF).
  assert (a1 = a0) by congruence. subst a1. exists n', tables.
  pose proof (start_displayable n n' tables Hsw Hst) as Hd. pose proof (start_roomy n n' tables Hsw Hst) as Hr. pose proof (start_linked n n' tables Hsw Hst) as Hl.
  destruct (session_same n' Hd Hr Hl other_digit events a0 a Ho E) as [S1 S2]. pose proof (session_any n' Hd Hr Hl other_digit events a0 Ho) as Hs. rewrite E in Hs.
  constructor; auto; [congruence|]. apply nth_Forall2; [rewrite (Forall2_len _ _ _ HF), <- (map_length t_var (a_nodes a)), S1, map_length; auto|]. intros i v t Hv Ht.
  pose proof (f_equal (fun l => nth_error l i) S2) as Ei. cbv beta in Ei. rewrite !nth_error_map, Ht in Ei. destruct (nth_error (a_nodes a0) i) as [t0|] eqn:Et; [|discriminate]. injection Ei as ->. apply (Forall2_nth _ _ _ HF _ _ _ Hv Et).
Qed.
Lemma table_shown n' tables a : reached_state n' tables a -> exists t a', selected_node a = Some t /\ show_table a = Ok a' /\ shows_table n tables a' (t_var t).
Proof.
  intros [R1 R2 R3 R4 R5 R6 R7 R8]. pose proof (ao_core _ _ R6) as Hc.
  destruct (show_table_ok n' R3 R5 a Hc) as (t & f & Es & Ef & Et).
  destruct (selected_get n' R5 a Hc) as (t1 & v & _ & Es1 & Hk & Hv & Hn). assert (t1 = t) by congruence. subst t1. clear Es1.
  exists t. eexists. split; [exact Es|]. split; [exact Et|].
  set (rows := map (row_cells (a_nodes a) t f) (seq 0 (List.length (slice_of (nf_table f)) / List.length (t_outcomes t)))).
  exists f, rows.
  assert (Hvt : nth_error (n_vars n) (Z.to_nat (a_selected a)) = Some (t_var t)) by (rewrite <- R7, nth_error_map, Hk; auto).
  split. { pose proof (Forall2_nth _ _ _ R8 _ _ _ Hvt Hk) as Q. cbv beta in Q. rewrite Ef in Q. destruct (sget_map tables (nv_name (t_var t))); [left; congruence|right]. split; auto. unfold own_factor in Q. destruct (nv_factor (t_var t)); [|discriminate]. eauto. }
  split; auto. split; auto. intros Htot. destruct (nd_factor _ _ _ Hn) as (f1 & Ef1 & Efor & Hg & Hrest). assert (f1 = f) by congruence. subst f1.
  destruct (node_outcomes n' R3 v t Hv Hn) as (Eo & En & Eu & Hpos).
  destruct Hrest as (Hdist & l & Hl1 & Hsize). { rewrite <- En. rewrite (total_start n n' tables R2). exact Htot. }
  assert (Hfor : nf_for f = t_name t) by congruence.
  assert (Hgiven : forall g, In g (nf_given f) -> exists w, var_named (map t_var (a_nodes a)) g = Some w) by (intros g Hin; apply (known_parents n' a); auto).
  assert (Hp : forall u, In u (a_nodes a) -> t_outcomes u <> []) by (intros u Hu; eapply (nodes_pos n' R3 R5 a); eauto).
  assert (Hsize' : List.length l = table_size (map t_var (a_nodes a)) (nf_given f ++ [nf_for f])) by (rewrite R7, <- (sr_vars _ _ _ R2); exact Hsize).
  pose proof (row_total (a_nodes a) (names_nodup n' R3 a Hc) _ t f Hk Hfor Hgiven Hp l Hl1 Hsize') as Hrt. rewrite R7 in Hrt.
  assert (Hlen : List.length rows = table_size (n_vars n) (nf_given f)) by (unfold rows; rewrite map_length, seq_length; auto).
  split; [exact Hlen|]. split.
  - intros s Hs. pose proof (cell_lt (n_vars n) (nf_given f) s Hs) as Hlt. unfold rows. rewrite Hrt, nth_error_map, (nth_error_nth' _ 0%nat) by (rewrite seq_length; auto). rewrite seq_nth by auto. cbn [option_map]. f_equal. cbn [plus].
    pose proof (row_spec (a_nodes a) (names_nodup n' R3 a Hc) _ t f Hk Hfor Hgiven Hp Hdist l Hl1 Hsize' s) as Hrow. rewrite R7 in Hrow. rewrite Hrow by auto. unfold table_row, label_of. rewrite R7. f_equal.
    apply map_ext. intros k. rewrite Hfor. unfold t_name. cbv zeta. unfold is_utility. destruct (nv_type (t_var t)); reflexivity.
  - intros r Hr. rewrite Hlen in Hr. apply cell_onto; auto. apply NoDup_remove in Hdist. rewrite app_nil_r in Hdist. tauto.
Qed.
End Reached.
