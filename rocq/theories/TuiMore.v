(** The terminal application: crashes, tables, pictures and files in the states reached. *)
From Coq Require Import ZArith List Bool String Lia QArith Qcanon.
From Verif Require Import Num GoBase VarModel GoFacts Tuples SpecFactor XnumFacts VEModel SpecVE NetModel SpecNet NetNew NetVars NetFactors NetVE NetQuery NetUtil NetMass NetExtra
  SpecNetPolicy CliModel DocModel TrainFacts TuiModel SpecTui SpecApp TuiSolve TuiMove TuiGrid TuiDraw TuiCanvas TuiApp TuiTable TuiEvents TuiSession TuiStart TuiTwice.
Import ListNotations.
Open Scope string_scope.
Open Scope list_scope.
Open Scope Z_scope.

(** ** Evidence with the same observations *)
Lemma has_key_get {V} (m : list (string * V)) x : has_key m x = match sget_map m x with Some _ => true | None => false end.
Proof. reflexivity. Qed.
Lemma same_pairs ev ev' : NoDup (map fst ev) -> NoDup (map fst ev') -> (forall x, sget_map ev x = sget_map ev' x) -> forall p : string * string, In p ev <-> In p ev'.
Proof.
  intros N1 N2 E [x o]. split; intros Hin.
  - apply (mget_In _ String.eqb_eq). rewrite <- E. apply (In_mget _ String.eqb_eq); auto.
  - apply (mget_In _ String.eqb_eq). rewrite E. apply (In_mget _ String.eqb_eq); auto.
Qed.
Lemma forallb_same {X} (p : X -> bool) l l' : (forall x, In x l <-> In x l') -> forallb p l = forallb p l'.
Proof.
  intros H. destruct (forallb p l) eqn:E, (forallb p l') eqn:E'; auto.
  - rewrite forallb_forall in E. assert (X' : forallb p l' = true); [|congruence]. apply forallb_forall. intros x Hx. apply E. apply H. auto.
  - rewrite forallb_forall in E'. assert (X' : forallb p l = true); [|congruence]. apply forallb_forall. intros x Hx. apply E'. apply H. auto.
Qed.
Lemma shown_same n ig ev ev' v : NoDup (map fst ev) -> NoDup (map fst ev') -> (forall x, sget_map ev x = sget_map ev' x) -> shown_numbers n ig ev v = shown_numbers n ig ev' v.
Proof.
  intros N1 N2 E.
  assert (Ea : forall s, agrees (n_vars n) ev s = agrees (n_vars n) ev' s) by (intros s; apply forallb_same; apply same_pairs; auto).
  assert (Ei : forall x, ignored_by ig ev x = ignored_by ig ev' x) by (intros x; unfold ignored_by; rewrite !has_key_get, E; auto).
  assert (Ej : forall s, joint n (ignored_by ig ev) s = joint n (ignored_by ig ev') s).
  { intros s. unfold joint. f_equal. f_equal. f_equal. apply filter_ext. intros [d p]. cbn [fst]. rewrite Ei. auto. }
  assert (Em : forall p p', (forall s, p s = p' s) -> mass n (ignored_by ig ev) p = mass n (ignored_by ig ev') p').
  { intros p p' Hp. unfold mass. f_equal. rewrite (filter_ext _ _ Hp). apply map_ext. auto. }
  assert (Ep : forall x k, shown_posterior n (ignored_by ig ev) ev x k = shown_posterior n (ignored_by ig ev') ev' x k).
  { intros x k. unfold shown_posterior, posterior. rewrite (Em _ _ Ea). rewrite (Em (fun s => agrees (n_vars n) ev s && (s x =? k)%nat) (fun s => agrees (n_vars n) ev' s && (s x =? k)%nat)) by (intros s; rewrite Ea; auto). auto. }
  assert (Ex : forall F, shown_expectation n (ignored_by ig ev) ev F = shown_expectation n (ignored_by ig ev') ev' F).
  { intros F. unfold shown_expectation. cbv zeta. rewrite (Em _ _ Ea). unfold sum_over. rewrite (filter_ext _ _ Ea).
    rewrite (map_ext (fun s => joint n (ignored_by ig ev) s * F s)%Qc (fun s => joint n (ignored_by ig ev') s * F s)%Qc) by (intros s; rewrite Ej; auto). auto. }
  unfold shown_numbers. cbv zeta. rewrite E. destruct (sget_map ev' (nv_name v)); auto. rewrite !Ex. destruct (is_total n (nv_name v)).
  - destruct (total_factor n) as [f|]; auto. f_equal. apply map_ext. intros [g w]. rewrite Ex. auto.
  - destruct (nv_type v); try (apply map_ext; intros k; apply Ep). auto.
Qed.

Section Reached.
Variables (n : network xnum) (ev : list (string * string)).
Hypothesis Hso : solvable n.
Hypothesis Hsw : showable n.
Hypothesis Hev : valid_observations n ev.
Variable other_digit : Z -> bool.
Variable scp : sched.
Notation reached := (reached other_digit scp n ev).
Notation handle := (handle other_digit).
Notation reached_state := (reached_state n scp).

Lemma reached_step scs a e a' : reached a -> handle scs e a = Ok a' -> reached a'.
Proof.
  intros (scs0 & a0 & events & E0 & E) H. exists scs0, a0, (events ++ [(e, scs)]). split; auto. unfold session in *. rewrite foldM_app, E. cbn [gbind foldM]. rewrite H. auto.
Qed.
Lemma listening_page a : listening a = true -> a_running a = true /\ a_page a = PGraph.
Proof. unfold listening. rewrite andb_true_iff. destruct (a_page a); intuition congruence. Qed.
Lemma crash_panics scs a e : reached a -> crash other_digit a e -> exists p, handle scs e a = Panic p.
Proof.
  intros Hr [Hl Hc]. destruct (reached_ok n ev Hso Hsw Hev other_digit scp a Hr) as (n' & tables & [R1 R2 R3 R4 R5 R6 R7 R8]). destruct (listening_page a Hl) as [Er Ep]. unfold TuiModel.handle. rewrite Er, Ep. cbn [negb].
  destruct Hc as [[-> (t & Et & Hk & Hz)]|(r & -> & Hr1 & Hr2)].
  - cbn [input_main]. destruct (selected_get n' R5 a (ao_core _ _ R6)) as (t1 & v & G & Es & _). assert (t1 = t) by congruence. subst t1.
    rewrite (enter_panic n' scs a t (ao_core _ _ R6) G); [cbn [gbind]; eauto| |exact Hz]. unfold is_utility. destruct (nv_type (t_var t)); cbn; congruence.
  - cbn [input_main]. change (rune " ") with 32. replace (r =? 32) with false by lia. unfold is_digit. replace (r <=? 255) with false by lia. rewrite Hr2.
    unfold select_node_outcome. replace (r <=? 57) with false by lia. rewrite andb_false_r. eauto.
Qed.
Lemma handle_reached scs a e : reached a -> (exists a', handle scs e a = Ok a') \/ (crash other_digit a e /\ exists p, handle scs e a = Panic p).
Proof.
  intros Hr. destruct (reached_ok n ev Hso Hsw Hev other_digit scp a Hr) as (n' & tables & [R1 R2 R3 R4 R5 R6 R7 R8]).
  destruct (handle_step n' R3 R4 R5 other_digit scs e a R6) as [(a' & E & _)|H]; eauto.
Qed.
Lemma chosen_ok scs a e xo : reached a -> chosen a e = Some xo -> exists a', handle scs e a = Ok a'.
Proof.
  intros Hr Hc. destruct (handle_reached scs a e Hr) as [H|[[Hl [[-> (t & Et & Hk & Hz)]|(r & -> & _)]] _]]; auto; exfalso; unfold chosen in Hc; rewrite Hl in Hc; [|discriminate].
  rewrite Et in Hc. unfold outcome_at in Hc. assert (Hno : nth_error (nv_outcomes (t_var t)) (Z.to_nat (a_state a)) = None) by (apply nth_error_None; unfold zlen in Hz; lia).
  rewrite Hno in Hc. destruct (nv_type (t_var t)), (a_state a <? 0); cbn in Hc; congruence.
Qed.
Lemma step_reached scs a e a' : reached a -> handle scs e a = Ok a' ->
  (forall y, sget_map (a_evidence a') y = match chosen a e with Some (x, o) => toggled (a_evidence a) x o y | None => sget_map (a_evidence a) y end) /\
  a_ignore a' = (if policies_toggled a e then negb (a_ignore a) else a_ignore a) /\
  map t_var (a_nodes a') = map t_var (a_nodes a) /\
  forall i t t', nth_error (a_nodes a) i = Some t -> nth_error (a_nodes a') i = Some t' ->
    t_bounds t' = if Z.of_nat i =? a_selected a then shifted (t_bounds t) (displacement a e) else t_bounds t.
Proof.
  intros Hr E. destruct (reached_ok n ev Hso Hsw Hev other_digit scp a Hr) as (n' & tables & [R1 R2 R3 R4 R5 R6 R7 R8]).
  destruct (handle_step n' R3 R4 R5 other_digit scs e a R6) as [(a1 & E1 & [S1 S2 S3 S4 S5 S6] & _)|[_ (p & Ep)]]; [|congruence]. assert (a1 = a') by congruence. subst a1. auto.
Qed.

(** ** Choosing twice *)
Lemma toggled_twice ev1 x o : sget_map ev1 x = None \/ sget_map ev1 x = Some o ->
  forall ev2, (forall y, sget_map ev2 y = toggled ev1 x o y) -> forall y, toggled ev2 x o y = sget_map ev1 y.
Proof.
  intros Hx ev2 H y. unfold toggled at 1. rewrite (H x). unfold toggled at 1. rewrite String.eqb_refl. destruct (String.eqb y x) eqn:E.
  - apply String.eqb_eq in E. subst y. destruct Hx as [->| ->]; rewrite ?String.eqb_refl; auto.
  - rewrite H. unfold toggled. rewrite E. auto.
Qed.
Lemma chosen_twice scs scs' a e x o : reached a -> chosen a e = Some (x, o) -> sget_map (a_evidence a) x = None \/ sget_map (a_evidence a) x = Some o ->
  exists a1 a2, handle scs e a = Ok a1 /\ handle scs' e a1 = Ok a2 /\ forall y, sget_map (a_evidence a2) y = sget_map (a_evidence a) y.
Proof.
  intros Hr Hc Hx. destruct (chosen_ok scs a e _ Hr Hc) as (a1 & E1). pose proof (reached_step scs a e a1 Hr E1) as Hr1.
  destruct (reached_ok n ev Hso Hsw Hev other_digit scp a Hr) as (n' & tables & [R1 R2 R3 R4 R5 R6 R7 R8]).
  pose proof (chosen_again n' R3 R4 R5 other_digit scs a e a1 (x, o) R6 Hc E1) as Hc1. destruct (chosen_ok scs' a1 e _ Hr1 Hc1) as (a2 & E2).
  exists a1, a2. split; auto. split; auto. destruct (step_reached scs a e a1 Hr E1) as (H1 & _). destruct (step_reached scs' a1 e a2 Hr1 E2) as (H2 & _). rewrite Hc in H1. rewrite Hc1 in H2.
  intros y. rewrite H2. apply toggled_twice; auto.
Qed.
Lemma chosen_lost scs scs' a e x o o' a1 a2 : reached a -> chosen a e = Some (x, o) -> sget_map (a_evidence a) x = Some o' -> o' <> o ->
  handle scs e a = Ok a1 -> handle scs' e a1 = Ok a2 -> sget_map (a_evidence a2) x = None.
Proof.
  intros Hr Hc Hx Hne E1 E2. pose proof (reached_step scs a e a1 Hr E1) as Hr1.
  destruct (reached_ok n ev Hso Hsw Hev other_digit scp a Hr) as (n' & tables & [R1 R2 R3 R4 R5 R6 R7 R8]).
  pose proof (chosen_again n' R3 R4 R5 other_digit scs a e a1 (x, o) R6 Hc E1) as Hc1. destruct (step_reached scs a e a1 Hr E1) as (H1 & _). destruct (step_reached scs' a1 e a2 Hr1 E2) as (H2 & _). rewrite Hc in H1. rewrite Hc1 in H2.
  rewrite H2. unfold toggled. rewrite String.eqb_refl, H1. unfold toggled. rewrite String.eqb_refl, Hx. destruct (String.eqb_spec o' o); [contradiction|]. rewrite String.eqb_refl. auto.
Qed.
Lemma evidence_valid a : reached a -> valid_observations n (a_evidence a).
Proof.
  intros Hr. destruct (reached_ok n ev Hso Hsw Hev other_digit scp a Hr) as (n' & tables & [R1 R2 R3 R4 R5 R6 R7 R8]). pose proof (co_evidence _ _ (ao_core _ _ R6)) as H. unfold valid_observations in *. rewrite (sr_vars _ _ _ R2) in H. auto.
Qed.
Lemma numbers_ok a : reached a -> exists n' tables, net_solve_policies scp n true = (n', Ok tables) /\ displayed n' (a_ignore a) (a_evidence a) (a_marginals a).
Proof.
  intros Hr. destruct (reached_ok n ev Hso Hsw Hev other_digit scp a Hr) as (n' & tables & [R1 R2 R3 R4 R5 R6 R7 R8]). exists n', tables. split; auto. apply (co_numbers _ _ (ao_core _ _ R6)).
Qed.
Lemma numbers_same a b : reached a -> reached b -> a_ignore a = a_ignore b -> (forall x, sget_map (a_evidence a) x = sget_map (a_evidence b) x) -> forall x, sget_map (a_marginals a) x = sget_map (a_marginals b) x.
Proof.
  intros Ha Hb Ei Ee x. destruct (numbers_ok a Ha) as (n1 & t1 & E1 & D1). destruct (numbers_ok b Hb) as (n2 & t2 & E2 & D2). assert (n2 = n1) by congruence. subst n2. rewrite D1, D2, Ei.
  destruct (var_named (n_vars n1) x); auto. cbn [option_map]. f_equal. apply shown_same; auto; [apply (evidence_valid a Ha)|apply (evidence_valid b Hb)].
Qed.

(** ** Tables *)
Lemma table_key scs a : reached a -> listening a = true ->
  exists n' tables t a', net_solve_policies scp n true = (n', Ok tables) /\ selected_node a = Some t /\ handle scs (Press (KRune (rune "t"))) a = Ok a' /\ shows_table n tables a' (t_var t).
Proof.
  intros Hr Hl. destruct (reached_ok n ev Hso Hsw Hev other_digit scp a Hr) as (n' & tables & Hs). destruct (table_shown n scp n' tables a Hs) as (t & a' & E1 & E2 & E3). exists n', tables, t, a'.
  split; [apply Hs|]. split; auto. split; auto. destruct (listening_page a Hl) as [Er Ep]. unfold TuiModel.handle. rewrite Er, Ep. cbn [negb input_main].
  change (rune "t" =? rune " ") with false. change (is_digit other_digit (rune "t")) with false. change (rune "t" =? rune "h") with false. change (rune "t" =? rune "i") with false. change (rune "t" =? rune "t") with true. cbv iota. exact E2.
Qed.
Lemma table_click scs a x y t : reached a -> listening a = true -> node_under a x y = Some t ->
  exists n' tables a', net_solve_policies scp n true = (n', Ok tables) /\ handle scs (RightClick x y) a = Ok a' /\ shows_table n tables a' (t_var t).
Proof.
  intros Hr Hl Hu. destruct (reached_ok n ev Hso Hsw Hev other_digit scp a Hr) as (n' & tables & Hs). pose proof Hs as [R1 R2 R3 R4 R5 R6 R7 R8]. destruct (listening_page a Hl) as [Er Ep]. unfold TuiModel.handle. rewrite Er, Ep. cbn [negb].
  unfold right_click. change (fun '(i, t0) => b_contains (t_bounds t0) x y) with (fun '((i, t0) : Z * tnode) => b_contains (t_bounds t0) x y).
  pose proof (find_numbered (fun t => b_contains (t_bounds t) x y) (a_nodes a)) as Hf. unfold node_under in Hu. change inside with b_contains in Hu.
  destruct (find _ (combine _ _)) as [[i t1]|]; [|congruence]. destruct Hf as (Hi & Hn & Hf). assert (t1 = t) by congruence. subst t1.
  destruct (render_again n' R3 R4 (set_selection a i (a_state a))) as (a1 & E1 & Ho & P1 & P2 & P3 & P4 & P5 & P6 & P7 & P8 & P9 & P10).
  - apply core_selection; auto. apply (ao_core _ _ R6). apply (co_state _ _ (ao_core _ _ R6)).
  - apply update_selection. apply (screen_update n'). auto.
  - rewrite E1. cbn [gbind].
    assert (Ht1 : exists u, nth_error (a_nodes a1) (Z.to_nat i) = Some u /\ t_var u = t_var t).
    { pose proof (f_equal (fun l => nth_error l (Z.to_nat i)) P9) as Q. cbv beta in Q. rewrite !nth_error_map in Q. cbn [a_nodes set_selection] in Q. rewrite Hn in Q. destruct (nth_error (a_nodes a1) (Z.to_nat i)) as [u|]; [|discriminate]. injection Q as Q. eauto. }
    destruct Ht1 as (u & Hu1 & Hu2).
    assert (Hs1 : reached_state n' tables a1).
    { constructor; auto; [rewrite P9; exact R7|]. apply nth_Forall2; [rewrite <- R7, <- (map_length t_var (a_nodes a1)), P9; auto|]. intros j v w Hv Hw.
      pose proof (f_equal (fun l => nth_error l j) P10) as Q. cbv beta in Q. rewrite !nth_error_map, Hw in Q. cbn [a_nodes set_selection] in Q. destruct (nth_error (a_nodes a) j) as [w0|] eqn:Ew; [|discriminate]. injection Q as Q1 Q2 Q3. rewrite Q2. apply (Forall2_nth _ _ _ R8 _ _ _ Hv Ew). }
    destruct (table_shown n scp n' tables a1 Hs1) as (t2 & a' & E2 & E3 & E4). exists n', tables, a'. split; auto. split; auto.
    assert (t2 = u). { unfold selected_node in E2. rewrite P4 in E2. cbn [a_selected set_selection] in E2. replace (i <? 0) with false in E2 by lia. congruence. }
    subst t2. rewrite <- Hu2. exact E4.
Qed.

(** ** Pictures *)
Lemma layers_last {X} (V : X -> layer) l i p y x r : nth_error l i = Some p -> V p y x = Some r -> (forall j q, (i < j)%nat -> nth_error l j = Some q -> V q y x = None) -> layers V l y x = Some r.
Proof.
  revert i. induction l as [|q l IH]; intros i Hi Hp Hl; [destruct i; discriminate|]. rewrite layers_cons. destruct i as [|i].
  - injection Hi as ->. destruct (layers V l y x) as [r'|] eqn:E; auto. exfalso. assert (En : layers V l y x <> None) by congruence. apply layers_some in En. destruct En as (q' & Hq & Hv). apply In_nth_error in Hq. destruct Hq as [j Hj].
    apply Hv. apply (Hl (S j) q'); auto. lia.
  - rewrite (IH i Hi Hp); auto. intros j q' Hj Hq. apply (Hl (S j)); auto. lia.
Qed.
Lemma screen_ok a : reached a -> exists W H, shaped W H (a_canvas a) /\ visible (a_text a) = a_canvas a /\
  (forall t, In t (a_nodes a) -> 0 <= b_x (t_bounds t) /\ 0 <= b_y (t_bounds t) /\ b_x (t_bounds t) + b_w (t_bounds t) <= W /\ b_y (t_bounds t) + b_h (t_bounds t) <= H) /\
  (forall i t y x, nth_error (a_nodes a) i = Some t -> inside (t_bounds t) x y = true -> (forall j u, (i < j)%nat -> nth_error (a_nodes a) j = Some u -> inside (t_bounds u) x y = false) ->
     exists r, px (t_runes t) (y - b_y (t_bounds t)) (x - b_x (t_bounds t)) = Ok r /\ px (a_canvas a) y x = Ok r) /\
  exists bg, render_edges (a_nodes a) (repeat (repeat sym_empty (Z.to_nat W)) (Z.to_nat H)) = Ok bg /\
    forall y x, 0 <= y < H -> 0 <= x < W -> (forall t, In t (a_nodes a) -> inside (t_bounds t) x y = false) -> px (a_canvas a) y x = px bg y x.
Proof.
  intros Hr. destruct (reached_ok n ev Hso Hsw Hev other_digit scp a Hr) as (n' & tables & [R1 R2 R3 R4 R5 R6 R7 R8]). destruct (ao_screen _ _ R6) as (W & H & HW & HH & [O1 O2 O3 O4 O5 O6 O7]). exists W, H. split; auto. split; auto.
  change inside with b_contains. split; [|split].
  - intros t Ht. destruct (O1 t Ht) as (_ & Hc & _). exact Hc.
  - intros i t y x Hi Hin Hlast. destruct (O1 t (nth_error_In _ _ Hi)) as (Hk & (Hc1 & Hc2 & Hc3 & Hc4) & _). pose proof Hin as Hin'. unfold b_contains in Hin'. rewrite !andb_true_iff in Hin'.
    destruct (px_ok _ _ (t_runes t) (y - b_y (t_bounds t)) (x - b_x (t_bounds t)) (no_runes t Hk)) as (r & Er); [lia|lia|]. exists r. split; auto. apply O6; [lia|lia|].
    apply (layers_last picture (a_nodes a) i t); auto.
    + unfold picture, image. rewrite Hin, Er. auto.
    + intros j u Hj Hu. unfold picture, image. rewrite (Hlast j u Hj Hu). auto.
  - destruct O5 as (bg & Eb & Hb & Pb). assert (Ec : clear_grid sym_empty (a_canvas a) = repeat (repeat sym_empty (Z.to_nat W)) (Z.to_nat H)).
    { destruct O2 as [L1 L2]. unfold clear_grid. clear - L1 L2. assert (E1 : Z.to_nat H = List.length (a_canvas a)) by (unfold zlen in L1; lia). rewrite E1. clear E1 L1. induction (a_canvas a) as [|row l IH]; auto. cbn [map List.length repeat]. rewrite IH by (intros r Hr; apply L2; right; auto). f_equal.
      assert (E2 : Z.to_nat W = List.length row) by (specialize (L2 row (or_introl eq_refl)); unfold zlen in L2; lia). rewrite E2. clear. induction row as [|c row IH]; auto. cbn. rewrite IH. auto. }
    exists bg. rewrite <- Ec. split; auto. intros y x Hy Hx Hno. apply Pb; auto. destruct (layers picture (a_nodes a) y x) as [r|] eqn:E; auto. exfalso. assert (En : layers picture (a_nodes a) y x <> None) by congruence. apply layers_some in En. destruct En as (t & Ht & Hv). apply Hv. unfold picture, image. rewrite (Hno t Ht). auto.
Qed.
Lemma picture_ok a i t : reached a -> nth_error (a_nodes a) i = Some t ->
  exists n' tables, net_solve_policies scp n true = (n', Ok tables) /\ (modest n' (t_var t) ->
    exists u u', new_node (t_var t) (t_factor t) = Ok u /\ render_node u (shown_numbers n' (a_ignore a) (a_evidence a) (t_var t)) (Z.of_nat i =? a_selected a) (a_state a) (has_key (a_evidence a) (nv_name (t_var t))) = Ok u' /\ t_runes t = t_runes u').
Proof.
  intros Hr Hi. destruct (reached_ok n ev Hso Hsw Hev other_digit scp a Hr) as (n' & tables & [R1 R2 R3 R4 R5 R6 R7 R8]). exists n', tables. split; auto. intros Hm. apply (ao_current _ _ R6 i t Hi Hm).
Qed.

(** ** Saving *)
Definition places (a : app) : list (Z * Z) := map (fun t => (b_x (t_bounds t), b_y (t_bounds t))) (a_nodes a).
Lemma saved_ok scs a : reached a -> listening a = true -> exists d a', handle scs (Press KCtrlS) a = Ok a' /\ a_saved a' = Some d /\ to_yaml (placed n (places a)) = Ok d.
Proof.
  intros Hr Hl. destruct (reached_ok n ev Hso Hsw Hev other_digit scp a Hr) as (n' & tables & [R1 R2 R3 R4 R5 R6 R7 R8]). destruct (listening_page a Hl) as [Er Ep]. pose proof (ao_core _ _ R6) as Hc.
  destruct (save_ok n' R3 R5 a Hc) as (d & Ed & Es & _). exists d, (set_saved a d). split; [unfold TuiModel.handle; rewrite Er, Ep; exact Es|]. split; auto. rewrite <- Ed.
  destruct (co_net _ _ Hc) as [L1 L2 _ _ L5]. pose proof (co_places _ _ Hc) as Hp. unfold to_yaml. cbn [n_vars n_name placed]. rewrite L5, (sr_name _ _ _ R2).
  assert (Ef : n_factors (a_net a) = n_factors n) by (rewrite L2; apply (sr_factors _ _ _ R2)). rewrite (sr_vars _ _ _ R2) in L1.
  match goal with |- gbind ?A _ = gbind ?B _ => assert (EA : A = B); [|rewrite EA; auto] end.
  unfold places. revert Hp L1. generalize (a_nodes a). generalize (n_vars (a_net a)) as vs. generalize (n_vars n) as ws. clear - Ef. intros ws vs ts Hp. revert ws. induction Hp as [|v t vs ts Hvt Hp IH]; intros ws L; inversion L as [|w v' ws' vs' Hw L']; subst; auto.
  cbn [map combine mapM]. rewrite IH by auto. destruct Hw as (S1 & S2 & S3 & S4). unfold yaml_var at 1 3. cbn [nv_factor nv_outcomes nv_name nv_type nv_pos n_factors placed]. rewrite Ef, S1, S2, S3, S4, Hvt. reflexivity.
Qed.
End Reached.

Lemma start_places n ev scs scp a : solvable n -> showable n -> valid_observations n ev -> app_run scs scp n ev = Ok a ->
  map (fun t => (nv_name (t_var t), (b_x (t_bounds t), b_y (t_bounds t)))) (a_nodes a) = map (fun v => (nv_name v, nv_pos v)) (n_vars n).
Proof.
  intros Hso Hsw Hev E. destruct (app_run_ok scs scp n ev Hso Hsw Hev) as (n' & tables & a1 & _ & _ & Er & _ & _ & _ & _ & _ & Hv & Hp & _). assert (a1 = a) by congruence. subst a1. clear - Hv Hp.
  rewrite <- Hv in Hp |- *. rewrite map_map. apply map_ext_in. intros t Ht. f_equal. apply In_nth_error in Ht. destruct Ht as [i Hi].
  assert (Hi' : nth_error (map t_var (a_nodes a)) i = Some (t_var t)) by (rewrite nth_error_map, Hi; auto). destruct (Forall2_nth _ _ _ Hp i _ _ Hi' Hi) as [-> ->]. destruct (nv_pos (t_var t)); auto.
Qed.
