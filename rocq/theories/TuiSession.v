(** The terminal application: sessions. *)
From Coq Require Import ZArith List Bool String Lia QArith Qcanon.
From Verif Require Import Num GoBase VarModel GoFacts Tuples SpecFactor XnumFacts VEModel SpecVE NetModel SpecNet NetNew NetVars NetFactors NetVE NetQuery NetMass NetExtra
  SpecNetPolicy CliModel DocModel TrainFacts TuiModel SpecTui SpecApp TuiSolve TuiMove TuiGrid TuiDraw TuiCanvas TuiApp TuiTable TuiEvents.
Import ListNotations.
Open Scope string_scope.
Open Scope list_scope.
Open Scope Z_scope.

Lemma Forall2_upd {X Y} (P : X -> Y -> Prop) l l' i x y : Forall2 P l l' -> nth_error l i = Some x -> P x y -> Forall2 P l (upd_nth l' i y).
Proof.
  intros F Hx Hp. pose proof (Forall2_len _ _ _ F) as L. apply nth_Forall2; [rewrite upd_nth_length; auto|]. intros j u v Hu Hv. rewrite upd_nth_spec in Hv.
  destruct (Nat.eqb_spec i j) as [->|]; cbn [andb] in Hv; [|eapply Forall2_nth; eauto]. destruct (Nat.ltb_spec j (List.length l')); [congruence|]. eapply Forall2_nth; eauto.
Qed.
Lemma Forall2_upd2 {X Y} (P : X -> Y -> Prop) l l' i x y : Forall2 P l l' -> P x y -> Forall2 P (upd_nth l i x) (upd_nth l' i y).
Proof.
  intros F Hp. pose proof (Forall2_len _ _ _ F) as L. apply nth_Forall2; [rewrite !upd_nth_length; auto|]. intros j u v Hu Hv. rewrite upd_nth_spec in Hu. rewrite upd_nth_spec in Hv. rewrite L in Hu.
  destruct ((i =? j)%nat && (i <? List.length l')%nat); [congruence|]. eapply Forall2_nth; eauto.
Qed.
Lemma find_numbered {X} (p : X -> bool) (l : list X) :
  match find (fun '((i, t) : Z * X) => p t) (combine (zrange 0 (zlen l)) l) with
  | Some (i, t) => 0 <= i < zlen l /\ nth_error l (Z.to_nat i) = Some t /\ find p l = Some t
  | None => find p l = None
  end.
Proof.
  assert (G : forall k, find (fun '((i, t) : Z * X) => p t) k = match find (fun z => p (snd z)) k with Some z => Some z | None => None end).
  { induction k as [|[i t] k IH]; simpl; auto. destruct (p t); auto. }
  rewrite G. destruct (find (fun z => p (snd z)) (combine (zrange 0 (zlen l)) l)) as [[i t]|] eqn:E.
  - pose proof (find_some _ _ E) as [Hin Hp]. apply In_nth_error in Hin. destruct Hin as [j Hj]. rewrite numbered_at in Hj. destruct (nth_error l j) as [u|] eqn:Hu; [|discriminate]. injection Hj as <- <-.
    assert (j < List.length l)%nat by (apply nth_error_Some; congruence). unfold zlen. split; [lia|]. rewrite Nat2Z.id. split; auto.
    clear -E. assert (Q : forall k, option_map snd (find (fun z => p (snd z)) k) = find p (map (@snd Z X) k)) by (induction k as [|z k IH]; simpl; auto; destruct (p (snd z)); auto).
    specialize (Q (combine (zrange 0 (zlen l)) l)). rewrite E in Q. rewrite map_snd_numbered in Q. auto.
  - assert (Q : forall k, option_map snd (find (fun z => p (snd z)) k) = find p (map (@snd Z X) k)) by (induction k as [|z k IH]; simpl; auto; destruct (p (snd z)); auto).
    specialize (Q (combine (zrange 0 (zlen l)) l)). rewrite E in Q. rewrite map_snd_numbered in Q. auto.
Qed.

Section Session.
Variable n : network xnum.
Hypothesis Hd : displayable n.
Hypothesis Hroom : roomy n.
Hypothesis Hlinked : forall v, In v (n_vars n) -> exists k f, nv_factor v = Some k /\ nth_error (n_factors n) k = Some f.
Let Hwf : wf_network n := dp_wf n Hd.
Notation core := (core n).
Notation app_ok := (app_ok n).

(** ** Moving nodes *)
Lemma moved_node v t b : node_of n v t -> b_w b = b_w (t_bounds t) -> b_h b = b_h (t_bounds t) -> 0 <= b_x b -> 0 <= b_y b -> node_of n v (with_bounds t b).
Proof.
  intros [h1 h2 h3 h4 h5 h6 h7] Ew Eh Hx Hy. constructor; auto. destruct h3 as [m1 m2 m3 m4 m5 m6]. constructor; cbn [t_bounds t_var t_bars t_runes t_colors with_bounds]; try congruence; try rewrite Ew, Eh; auto.
Qed.
Lemma moved_core a t dx dy : core a -> nth_error (a_nodes a) (Z.to_nat (a_selected a)) = Some t -> 0 <= b_x (t_bounds t) + dx -> 0 <= b_y (t_bounds t) + dy ->
  exists net, move_variable (a_net a) (a_selected a) dx dy = Ok net /\
    sset (a_nodes a) (a_selected a) (with_bounds t (shifted (t_bounds t) (dx, dy))) = Ok (upd_nth (a_nodes a) (Z.to_nat (a_selected a)) (with_bounds t (shifted (t_bounds t) (dx, dy)))) /\
    core (set_net (set_nodes a (upd_nth (a_nodes a) (Z.to_nat (a_selected a)) (with_bounds t (shifted (t_bounds t) (dx, dy))))) net).
Proof.
  intros Hc Ht Hx Hy. pose proof (co_selected _ _ Hc) as Hs. set (i := Z.to_nat (a_selected a)) in *. assert (Ei : a_selected a = Z.of_nat i) by lia.
  pose proof (Forall2_len _ _ _ (co_places _ _ Hc)) as L1. pose proof (Forall2_len _ _ _ (co_nodes _ _ Hc)) as L2. unfold zlen in Hs.
  destruct (nth_error (n_vars (a_net a)) i) as [v|] eqn:Ev; [|apply nth_error_None in Ev; lia]. destruct (nth_error (n_vars n) i) as [w|] eqn:Ew; [|apply nth_error_None in Ew; lia].
  set (t' := with_bounds t (shifted (t_bounds t) (dx, dy))).
  unfold move_variable. rewrite Ei, (sget_ok _ _ _ Ev). cbn [gbind]. rewrite sset_ok by lia. cbn [gbind]. eexists. split; [reflexivity|]. rewrite sset_ok by lia. split; [reflexivity|].
  pose proof (Forall2_nth _ _ _ (co_nodes _ _ Hc) _ _ _ Ew Ht) as Hn. pose proof (Forall2_nth _ _ _ (co_places _ _ Hc) _ _ _ Ev Ht) as Hp. cbv beta in Hp. pose proof (co_net _ _ Hc) as Hr. pose proof (Forall2_nth _ _ _ (rl_vars _ _ Hr) _ _ _ Ew Ev) as Hsame.
  set (v' := mkNVar (nv_name v) (nv_type v) (nv_outcomes v) (fst (nv_pos v) + dx, snd (nv_pos v) + dy) (nv_color v) (nv_factor v)).
  set (net := mkNet _ _ (upd_nth (n_vars (a_net a)) i v') _ _ _ _ _).
  assert (Hvv : same_node v v') by (repeat split).
  assert (Hrr : relaid (a_net a) net). { constructor; try reflexivity. cbn [n_vars net]. eapply Forall2_upd; eauto. apply (rl_vars _ _ (relaid_refl (a_net a))). }
  constructor; cbn [a_net a_nodes a_selected a_state a_evidence a_ignore a_marginals set_net set_solution set_nodes].
  - eapply relaid_trans; eauto.
  - apply (re_used (a_net a) net Hrr); [reflexivity|apply (co_used _ _ Hc)].
  - eapply Forall2_upd; [apply (co_nodes _ _ Hc)|exact Ew|]. apply moved_node; auto.
  - cbn [n_vars net]. apply Forall2_upd2; [apply (co_places _ _ Hc)|]. cbn [v' nv_pos t_bounds t' with_bounds shifted b_x b_y fst snd]. rewrite Hp. reflexivity.
  - unfold zlen. rewrite upd_nth_length. lia.
  - apply (co_state _ _ Hc).
  - apply (co_evidence _ _ Hc).
  - apply (co_numbers _ _ Hc).
  - intros u Hu. apply In_nth_error in Hu. destruct Hu as [j Hj]. rewrite upd_nth_spec in Hj. destruct ((i =? j)%nat && (i <? List.length (a_nodes a))%nat).
    + injection Hj as <-. exact (co_sketched _ _ Hc t (nth_error_In _ _ Ht)).
    + apply (co_sketched _ _ Hc). eapply nth_error_In; eauto.
Qed.
Lemma core_canvas a c d : core a -> core (set_canvas a c d).
Proof. intros [c1 c2 c3 c4 c5 c6 c7 c8 c9]. constructor; auto. Qed.
Lemma core_nodes_ok a : core a -> forall t, In t (a_nodes a) -> node_ok t /\ t_factor t <> None /\ 0 <= b_x (t_bounds t) /\ 0 <= b_y (t_bounds t).
Proof. intros Hc t Ht. destruct (node_in n a t Hc Ht) as (v & Hv & Hn). destruct Hn as [h1 h2 h3 h4 h5 (f & Hf & _) h7]. split; auto. split; [congruence|auto]. Qed.

(** ** One event *)
(** What is the same and what changes. *)
Record stepped (a : app) (e : event) (a' : app) : Prop := {
  sd_ok : app_ok a';
  sd_evidence : forall y, sget_map (a_evidence a') y = match chosen a e with Some (x, o) => toggled (a_evidence a) x o y | None => sget_map (a_evidence a) y end;
  sd_ignore : a_ignore a' = if policies_toggled a e then negb (a_ignore a) else a_ignore a;
  sd_vars : map t_var (a_nodes a') = map t_var (a_nodes a);
  sd_factors : map t_factor (a_nodes a') = map t_factor (a_nodes a);
  sd_places : forall i t t', nth_error (a_nodes a) i = Some t -> nth_error (a_nodes a') i = Some t' ->
    t_bounds t' = if Z.of_nat i =? a_selected a then shifted (t_bounds t) (displacement a e) else t_bounds t
}.
Lemma shifted_0 b : shifted b (0, 0) = b.
Proof. destruct b as [x y w h]. unfold shifted. cbn [b_x b_y b_w b_h fst snd]. rewrite !Z.add_0_r. reflexivity. Qed.
Lemma frame_places a a' : map frame (a_nodes a') = map frame (a_nodes a) -> map t_factor (a_nodes a') = map t_factor (a_nodes a) /\
  forall i t t', nth_error (a_nodes a) i = Some t -> nth_error (a_nodes a') i = Some t' -> t_bounds t' = t_bounds t.
Proof.
  intros E. split.
  - replace t_factor with (fun t => snd (fst (frame t))) by reflexivity. rewrite <- !(map_map frame (fun z => snd (fst z))). congruence.
  - intros i t t' Ht Ht'. pose proof (f_equal (fun l => nth_error l i) E) as Ei. cbv beta in Ei. rewrite !nth_error_map, Ht, Ht' in Ei. unfold frame in Ei. cbn [option_map] in Ei. congruence.
Qed.
(** Steps that leave nodes where they are. *)
Lemma stepped_still a e a' : app_ok a' -> displacement a e = (0, 0) -> map t_var (a_nodes a') = map t_var (a_nodes a) -> map frame (a_nodes a') = map frame (a_nodes a) ->
  (forall y, sget_map (a_evidence a') y = match chosen a e with Some (x, o) => toggled (a_evidence a) x o y | None => sget_map (a_evidence a) y end) ->
  a_ignore a' = (if policies_toggled a e then negb (a_ignore a) else a_ignore a) -> stepped a e a'.
Proof.
  intros Ho Hdis HV HF Hev Hig. destruct (frame_places a a' HF) as [E1 E2]. constructor; auto. intros i t t' Ht Ht'. rewrite Hdis, shifted_0, (E2 i t t' Ht Ht'). destruct (_ =? _); auto.
Qed.
(** Steps after which only the page, the table and the file can be different. *)
Lemma ok_same a a' : app_ok a -> a_net a' = a_net a -> a_nodes a' = a_nodes a -> a_selected a' = a_selected a -> a_state a' = a_state a -> a_evidence a' = a_evidence a -> a_ignore a' = a_ignore a ->
  a_marginals a' = a_marginals a -> a_canvas a' = a_canvas a -> a_colors a' = a_colors a -> a_text a' = a_text a -> app_ok a'.
Proof.
  destruct a, a'. cbn. intros [[c1 c2 c3 c4 c5 c6 c7 c8 c9] (W & H & HW & HH & [o1 o2 o3 o4 o5 o6 o7]) Hcur] -> -> -> -> -> -> -> -> -> ->. constructor; [constructor; auto|exists W, H; split; auto; split; auto; constructor; auto|exact Hcur].
Qed.

Lemma displaced_in a b e t e' : displacement a e = (0, 0) -> t_bounds t = b -> t_bounds t = if (e' : bool) then shifted b (displacement a e) else b.
Proof. intros -> ->. rewrite shifted_0. destruct e'; auto. Qed.
Lemma upd_map {X Y} (f : X -> Y) l i x : forall y, nth_error l i = Some y -> f x = f y -> map f (upd_nth l i x) = map f l.
Proof. revert i. induction l as [|z l IH]; intros [|i] y Hy E; cbn [upd_nth map nth_error] in *; auto; try discriminate; [congruence|]. f_equal. eapply IH; eauto. Qed.

Lemma move_ok a t dx dy (create : bool) : app_ok a -> nth_error (a_nodes a) (Z.to_nat (a_selected a)) = Some t -> sget (a_nodes a) (a_selected a) = Ok t ->
  0 <= b_x (t_bounds t) + dx -> 0 <= b_y (t_bounds t) + dy ->
  (create = false -> forall W H, 1 <= H -> shaped W H (a_canvas a) -> on_canvas W H (t_bounds t) -> on_canvas W H (shifted (t_bounds t) (dx, dy))) ->
  exists a', (let! nodes := sset (a_nodes a) (a_selected a) (with_bounds t (mkBounds (b_x (t_bounds t) + dx) (b_y (t_bounds t) + dy) (b_w (t_bounds t)) (b_h (t_bounds t)))) in
     let! n := move_variable (a_net a) (a_selected a) dx dy in
     let a := set_net (set_nodes a nodes) n in
     let! a := if create : bool then create_canvas a else Ok a in
     render false a) = Ok a' /\ app_ok a' /\ map t_var (a_nodes a') = map t_var (a_nodes a) /\ map t_factor (a_nodes a') = map t_factor (a_nodes a) /\
     a_evidence a' = a_evidence a /\ a_ignore a' = a_ignore a /\ a_selected a' = a_selected a /\ a_state a' = a_state a /\
     forall i u u', nth_error (a_nodes a) i = Some u -> nth_error (a_nodes a') i = Some u' -> t_bounds u' = if Z.of_nat i =? a_selected a then shifted (t_bounds u) (dx, dy) else t_bounds u.
Proof.
  intros Ho Ht Et Hx Hy Hcr. pose proof (ao_core _ _ Ho) as Hc. destruct (moved_core a t dx dy Hc Ht Hx Hy) as (net & E1 & E2 & Hc1).
  change (mkBounds (b_x (t_bounds t) + dx) (b_y (t_bounds t) + dy) (b_w (t_bounds t)) (b_h (t_bounds t))) with (shifted (t_bounds t) (dx, dy)). rewrite E2. cbn [gbind]. rewrite E1. cbn [gbind].
  set (nodes := upd_nth (a_nodes a) (Z.to_nat (a_selected a)) (with_bounds t (shifted (t_bounds t) (dx, dy)))) in *. set (a1 := set_net (set_nodes a nodes) net) in *.
  assert (G : exists c d, (if create then create_canvas a1 else Ok a1) = Ok (set_canvas a1 c d) /\ canvas_ok (set_canvas a1 c d)).
  { destruct create.
    - destruct (create_canvas_ok a1 (core_nodes_ok a1 Hc1)) as (W & H & c & d & E & HW & HH & S1 & S2 & Hno). exists c, d. split; auto. exists W, H. auto 10.
    - exists (a_canvas a1), (a_colors a1). assert (Ea : set_canvas a1 (a_canvas a1) (a_colors a1) = a1) by (subst a1; destruct a; reflexivity). rewrite Ea. split; auto. destruct (ao_screen _ _ Ho) as (W & H & HW & HH & Hos).
      exists W, H. split; auto. split; auto. split; [|split; [apply (os_canvas _ _ _ Hos)|apply (os_colors _ _ _ Hos)]]. intros u Hu. destruct (core_nodes_ok a1 Hc1 u Hu) as (A & B & _). split; auto. split; auto.
      cbn [a1 a_nodes set_net set_solution set_nodes] in Hu. apply In_nth_error in Hu. destruct Hu as [j Hj]. unfold nodes in Hj. rewrite upd_nth_spec in Hj. destruct (_ && _).
      + injection Hj as <-. cbn [t_bounds with_bounds]. apply Hcr; auto; [apply (os_canvas _ _ _ Hos)|]. apply (os_nodes _ _ _ Hos). eapply nth_error_In; eauto.
      + apply (os_nodes _ _ _ Hos). eapply nth_error_In; eauto. }
  destruct G as (c & d & E3 & Hca). rewrite E3. cbn [gbind].
  destruct (render_app n Hd Hroom false (set_canvas a1 c d) (core_canvas a1 c d Hc1) Hca) as (nodes' & c' & d' & l & E & Ho' & HV & HF); [discriminate|].
  eexists. split; [exact E|]. split; [exact Ho'|]. cbn [a_nodes a_evidence a_ignore a_selected a_state set_text set_canvas set_nodes set_net set_solution a1] in *.
  split; [rewrite HV; eapply upd_map; eauto|]. split.
  { transitivity (map t_factor nodes); [|eapply upd_map; eauto]. replace t_factor with (fun t => snd (fst (frame t))) by reflexivity. rewrite <- !(map_map frame (fun z => snd (fst z))). congruence. }
  split; auto. split; auto. split; auto. split; auto. intros i u u' Hu Hu'. pose proof (f_equal (fun l => nth_error l i) HF) as Ei. cbv beta in Ei. rewrite !nth_error_map, Hu' in Ei.
  pose proof (co_selected _ _ Hc) as Hs. unfold nodes in Ei. rewrite upd_nth_spec in Ei. cbn [option_map] in Ei.
  assert (i < List.length (a_nodes a))%nat by (apply nth_error_Some; congruence).
  destruct (Z.of_nat i =? a_selected a) eqn:Es.
  - replace ((Z.to_nat (a_selected a) =? i)%nat && (Z.to_nat (a_selected a) <? List.length (a_nodes a))%nat) with true in Ei; [|symmetry; rewrite andb_true_iff, Nat.eqb_eq, Nat.ltb_lt; lia].
    replace (Z.to_nat (a_selected a)) with i in Ht by lia. assert (u = t) by congruence. subst u. cbn [option_map] in Ei. unfold frame in Ei. cbn [t_bounds with_bounds] in Ei. congruence.
  - replace ((Z.to_nat (a_selected a) =? i)%nat) with false in Ei; [|symmetry; apply Nat.eqb_neq; lia]. cbn [andb] in Ei. rewrite Hu in Ei. unfold frame in Ei. cbn [option_map] in Ei. congruence.
Qed.

Section Step.
Variable other_digit : Z -> bool.
Definition good (a : app) (e : event) (r : gores app) : Prop :=
  (exists a', r = Ok a' /\ stepped a e a' /\ (plain_key other_digit e -> valid_selection a -> valid_selection a')) \/ (crash other_digit a e /\ exists p, r = Panic p).
Lemma good_select a e i s : app_ok a -> 0 <= i < zlen (a_nodes a) -> 0 <= s -> chosen a e = None -> policies_toggled a e = false -> displacement a e = (0, 0) ->
  (plain_key other_digit e -> valid_selection a -> valid_selection (set_selection a i s)) -> good a e (render true (set_selection a i s)).
Proof.
  intros Ho Hi Hs Hch Hp Hdis Hval. pose proof (ao_core _ _ Ho) as Hc.
  destruct (render_again n Hd Hroom (set_selection a i s) (core_selection n a i s Hc Hi Hs) (update_selection a i s (screen_update n a Ho))) as (a' & E & Ho' & F1 & F2 & F3 & F4 & F5 & F6 & F7 & F8 & HV & HF).
  left. exists a'. split; auto. cbn [a_evidence a_ignore a_nodes set_selection] in *. split.
  - apply stepped_still; auto; [rewrite Hch, F1; auto|rewrite Hp; auto].
  - intros Hk Hv. eapply selection_same; [| | |apply (Hval Hk Hv)]; auto.
Qed.
(** Steps that change nothing of this. *)
Lemma good_same a e a' : app_ok a -> chosen a e = None -> policies_toggled a e = false -> displacement a e = (0, 0) ->
  a_net a' = a_net a -> a_nodes a' = a_nodes a -> a_selected a' = a_selected a -> a_state a' = a_state a -> a_evidence a' = a_evidence a -> a_ignore a' = a_ignore a ->
  a_marginals a' = a_marginals a -> a_canvas a' = a_canvas a -> a_colors a' = a_colors a -> a_text a' = a_text a -> good a e (Ok a').
Proof.
  intros Ho Hch Hp Hdis E1 E2 E3 E4 E5 E6 E7 E8 E9 E10. left. exists a'. split; auto. split.
  - apply stepped_still; auto; [eapply ok_same; eauto|congruence|congruence|rewrite Hch, E5; auto|rewrite Hp; auto].
  - intros _ Hv. eapply selection_same; [| | |exact Hv]; congruence.
Qed.
Lemma first_row a : canvas_ok a -> exists W H first, sget (a_canvas a) 0 = Ok first /\ shaped W H (a_canvas a) /\ zlen first = W.
Proof.
  intros (W & H & HW & HH & _ & [S1 S2] & _). destruct (sget_in (a_canvas a) 0) as (first & E & Hin); [lia|]. exists W, H, first. split; auto. split; [split; auto|auto].
Qed.
Lemma shaped_size W H W' H' g : 1 <= H -> shaped W H g -> shaped W' H' g -> W = W' /\ H = H'.
Proof.
  intros HH [A B] [C D]. split; [|congruence]. destruct g as [|row g]; [unfold zlen in A; simpl in A; lia|]. rewrite <- (B row), <- (D row); cbn [In]; auto.
Qed.
Lemma good_move a r e : app_ok a -> listening a = true -> chosen a e = None -> policies_toggled a e = false ->
  (match selected_node a with Some t => displacement a e = (if r =? rune "w" then (0, if 0 <? b_y (t_bounds t) then -1 else 0)
      else if r =? rune "a" then ((if 0 <? b_x (t_bounds t) then -1 else 0), 0)
      else if r =? rune "s" then (0, 1)
      else if r =? rune "d" then (1, 0)
      else (0, 0)) | None => True end) -> good a e (move_node r a).
Proof.
  intros Ho Hl Hch Hp Hdis. pose proof (ao_core _ _ Ho) as Hc. destruct (selected_get n Hlinked a Hc) as (t & v & Et & Es & Ht & Hv & Hn). rewrite Es in Hdis.
  destruct (core_nodes_ok a Hc t (nth_error_In _ _ Ht)) as (Hno & _ & Hx & Hy). pose proof (update_canvas' a (screen_update n a Ho)) as Hca.
  assert (Hstay : displacement a e = (0, 0) -> good a e (Ok a)) by (intros; apply good_same; auto).
  assert (Hgo : forall dx dy (create : bool), displacement a e = (dx, dy) -> 0 <= b_x (t_bounds t) + dx -> 0 <= b_y (t_bounds t) + dy ->
    (create = false -> forall W H, 1 <= H -> shaped W H (a_canvas a) -> on_canvas W H (t_bounds t) -> on_canvas W H (shifted (t_bounds t) (dx, dy))) ->
    good a e (let! nodes := sset (a_nodes a) (a_selected a) (with_bounds t (mkBounds (b_x (t_bounds t) + dx) (b_y (t_bounds t) + dy) (b_w (t_bounds t)) (b_h (t_bounds t)))) in
     let! n := move_variable (a_net a) (a_selected a) dx dy in
     let a := set_net (set_nodes a nodes) n in
     let! a := if create : bool then create_canvas a else Ok a in
     render false a)).
  { intros dx dy create Hdd H1 H2 H3. destruct (move_ok a t dx dy create Ho Ht Et H1 H2 H3) as (a' & E & Ho' & F1 & F2 & F3 & F4 & F5 & F6 & F7). left. exists a'. split; auto. split.
    - constructor; auto; [rewrite Hch, F3; auto|rewrite Hp; auto|rewrite Hdd; auto].
    - intros _ Hval. eapply selection_same; [| | |exact Hval]; auto. }
  unfold move_node. rewrite Et. cbn [gbind].
  destruct (r =? rune "w").
  { destruct (0 <? b_y (t_bounds t)) eqn:E; cbn [gbind]; [change (negb (0 =? 0) || negb (-1 =? 0)) with true|change (negb (0 =? 0) || negb (0 =? 0)) with false]; cbv iota; auto.
    apply (Hgo 0 (-1) false); auto; try lia. intros _ W H _ _ (A & B & C & D); unfold on_canvas, shifted; cbn [b_x b_y b_w b_h fst snd]; lia. }
  destruct (r =? rune "a").
  { destruct (0 <? b_x (t_bounds t)) eqn:E; cbn [gbind]; [change (negb (-1 =? 0) || negb (0 =? 0)) with true|change (negb (0 =? 0) || negb (0 =? 0)) with false]; cbv iota; auto.
    apply (Hgo (-1) 0 false); auto; try lia. intros _ W H _ _ (A & B & C & D); unfold on_canvas, shifted; cbn [b_x b_y b_w b_h fst snd]; lia. }
  destruct (r =? rune "s").
  { cbn [gbind]. change (negb (0 =? 0) || negb (1 =? 0)) with true. cbv iota. apply (Hgo 0 1); auto; try lia. intros Hcr W H HH [S1 S2] (A & B & C & D). rewrite S1 in Hcr. unfold on_canvas, shifted; cbn [b_x b_y b_w b_h fst snd]. lia. }
  destruct (r =? rune "d").
  { destruct (first_row a Hca) as (W & H & first & E & S & Hf). rewrite E. cbn [gbind]. change (negb (1 =? 0) || negb (0 =? 0)) with true. cbv iota. apply (Hgo 1 0); auto; try lia. intros Hcr W' H' HH S' (A & B & C & D).
    destruct (shaped_size _ _ _ _ _ HH S' S). unfold on_canvas, shifted; cbn [b_x b_y b_w b_h fst snd]. lia. }
  cbn [gbind]. change (negb (0 =? 0) || negb (0 =? 0)) with false. cbv iota. auto.
Qed.
Lemma kind_utility v : is_utility v = true <-> nv_type v = Utility.
Proof. unfold is_utility. destruct (nv_type v); simpl; split; congruence. Qed.
Lemma row_outcome t s : is_utility (t_var t) = false -> 0 <= s -> outcome_at t s = option_map (fun o => (t_name t, o)) (nth_error (t_outcomes t) (Z.to_nat s)).
Proof.
  intros Hu Hs. unfold outcome_at. replace (s <? 0) with false by lia. destruct (nv_type (t_var t)) eqn:E; auto. apply kind_utility in E. congruence.
Qed.
Lemma row_utility t s : is_utility (t_var t) = true -> outcome_at t s = None.
Proof. intros Hu. apply kind_utility in Hu. unfold outcome_at. rewrite Hu. auto. Qed.
(** Enter with another selection. *)
Lemma good_enter scs a e i s t : app_ok a -> nth_error (a_nodes a) (Z.to_nat i) = Some t -> 0 <= i < zlen (a_nodes a) -> 0 <= s ->
  chosen a e = outcome_at t s -> policies_toggled a e = false -> displacement a e = (0, 0) ->
  (plain_key other_digit e -> valid_selection a -> valid_selection (set_selection a i s)) ->
  (is_utility (t_var t) = false -> zlen (t_outcomes t) <= s -> crash other_digit a e) ->
  good a e (let! a := input_enter scs (set_selection a i s) in render true a).
Proof.
  intros Ho Ht Hi Hs Hch Hp Hdis Hval Hcrash. pose proof (ao_core _ _ Ho) as Hc. pose proof (screen_update n a Ho) as Hu.
  pose proof (core_selection n a i s Hc Hi Hs) as Hc1. set (a1 := set_selection a i s) in *.
  destruct (node_in n a t Hc (nth_error_In _ _ Ht)) as (v & Hv & Hn).
  assert (Et : sget (a_nodes a1) (a_selected a1) = Ok t). { cbn [a1 a_nodes a_selected set_selection]. rewrite <- (Z2Nat.id i) by lia. apply sget_ok. auto. }
  destruct (is_utility (t_var t)) eqn:Hut.
  - unfold input_enter. rewrite Et. cbn [gbind]. rewrite Hut. cbn [gbind]. apply good_select; auto. rewrite Hch. apply row_utility; auto.
  - destruct (nth_error (t_outcomes t) (Z.to_nat s)) as [o|] eqn:Eo.
    + destruct (enter_ok n Hd Hlinked scs a1 t v o Hc1 Hu Et Hv Hn Hut Eo) as (a2 & E & Hc2 & Hu2 & Hev & Hig & (R1 & R2 & R3 & R4 & R5 & R6 & R7)). rewrite E. cbn [gbind].
      destruct (render_again n Hd Hroom a2 Hc2 Hu2) as (a' & E' & Ho' & F1 & F2 & F3 & F4 & F5 & F6 & F7 & F8 & HV & HF).
      left. exists a'. split; auto. split.
      * apply stepped_still; auto; [rewrite HV, R6; auto|rewrite HF, R7; auto| |rewrite Hp, F2, Hig; auto]. rewrite Hch, (row_outcome t s Hut Hs), Eo. cbn [option_map]. rewrite F1. exact Hev.
      * intros Hk Hva. eapply selection_same; [| | |exact (Hval Hk Hva)]; congruence.
    + apply nth_error_None in Eo. right. assert (zlen (t_outcomes t) <= s) by (unfold zlen; lia). split; [apply Hcrash; auto|]. exists PIndex. rewrite (enter_panic n scs a1 t Hc1 Et Hut); auto.
Qed.
Lemma outcome_row t x y : inside (t_bounds t) x y = true -> is_utility (t_var t) = false ->
  match selected_outcome t x y with
  | Some o => 0 <= o < zlen (t_outcomes t) /\ o = y - b_y (t_bounds t) - 2
  | None => y - b_y (t_bounds t) - 2 < 0 \/ zlen (t_outcomes t) <= y - b_y (t_bounds t) - 2
  end.
Proof.
  intros Hin Hu. unfold selected_outcome. change (b_contains (t_bounds t) x y) with (inside (t_bounds t) x y). rewrite Hin. cbn [negb].
  destruct (find _ _) as [o|] eqn:E.
  - apply find_some in E. destruct E as [E1 E2]. apply in_zrange in E1. lia.
  - destruct (Z.ltb_spec (y - b_y (t_bounds t) - 2) 0); auto. destruct (Z.leb_spec (zlen (t_outcomes t)) (y - b_y (t_bounds t) - 2)); auto. exfalso.
    apply (find_none _ _ E (y - b_y (t_bounds t) - 2)) in E || (pose proof (find_none _ _ E (y - b_y (t_bounds t) - 2)) as Q; cbv beta in Q; rewrite Z.eqb_neq in Q; apply Q; [apply in_zrange; lia|lia]).
Qed.
Lemma listening_on a : a_running a = true -> a_page a = PGraph -> listening a = true.
Proof. intros E1 E2. unfold listening. rewrite E1, E2. auto. Qed.
Lemma good_left scs a x y : app_ok a -> listening a = true -> good a (LeftClick x y) (left_click scs x y a).
Proof.
  intros Ho Hl. pose proof (ao_core _ _ Ho) as Hc. unfold left_click. pose proof (find_numbered (fun t => b_contains (t_bounds t) x y) (a_nodes a)) as F. cbv beta in F.
  assert (Hp : policies_toggled a (LeftClick x y) = false) by (unfold policies_toggled; rewrite andb_false_r; auto).
  assert (Hdis : displacement a (LeftClick x y) = (0, 0)) by (unfold displacement; rewrite Hl; auto).
  destruct (find _ (combine _ _)) as [[i t]|].
  - destruct F as (Hi & Ht & Hf). pose proof (find_some _ _ Hf) as [_ Hin]. change (inside (t_bounds t) x y = true) in Hin.
    assert (Hch : chosen a (LeftClick x y) = outcome_at t (y - b_y (t_bounds t) - 2)). { unfold chosen. rewrite Hl. unfold node_under. change (fun t => inside (t_bounds t) x y) with (fun t => b_contains (t_bounds t) x y). rewrite Hf. auto. }
    destruct (is_utility (t_var t)) eqn:Hu.
    + rewrite (row_utility _ _ Hu) in Hch. assert (Es : forall s, 0 <= s -> good a (LeftClick x y) (render true (set_selection a i s))) by (intros s Hs; apply good_select; auto; intros []).
      destruct (selected_outcome t x y) as [o|] eqn:E.
      * unfold input_enter. cbn [a_nodes a_selected set_selection]. rewrite <- (Z2Nat.id i) at 1 by lia. rewrite (sget_ok _ _ _ Ht). cbn [gbind]. rewrite Hu. cbn [gbind]. apply Es.
        unfold selected_outcome in E. destruct (negb _); [discriminate|]. apply find_some in E. destruct E as [E _]. apply in_zrange in E. lia.
      * cbn [gbind]. apply Es. apply (co_state _ _ Hc).
    + pose proof (outcome_row t x y Hin Hu) as R. destruct (selected_outcome t x y) as [o|].
      * destruct R as [R1 R2]. apply (good_enter scs a (LeftClick x y) i o t); auto; [lia|congruence|intros []|lia].
      * cbn [gbind]. apply good_select; auto; [apply (co_state _ _ Hc)| |intros []]. rewrite Hch. unfold outcome_at. destruct (nv_type (t_var t)); auto; destruct (_ <? 0) eqn:E; auto; (rewrite (proj2 (nth_error_None _ _)); [auto|]); unfold zlen, t_outcomes in R; lia.
  - apply good_same; auto. unfold chosen. rewrite Hl. unfold node_under. change (fun t => inside (t_bounds t) x y) with (fun t => b_contains (t_bounds t) x y). rewrite F. auto.
Qed.

(** Showing the table leaves the rest. *)
Lemma good_table a e a1 : good a e (Ok a1) -> good a e (show_table a1).
Proof.
  intros [(a' & E & Hst & Hval)|[_ [p Hp]]]; [|discriminate]. injection E as <-. pose proof (sd_ok _ _ _ Hst) as Ho. destruct (show_table_ok n Hd Hlinked a1 (ao_core _ _ Ho)) as (t & f & _ & _ & E). rewrite E.
  left. eexists. split; [reflexivity|]. destruct Hst as [h1 h2 h3 h4 h5 h6]. split; [constructor; auto; eapply ok_same; eauto|]. intros Hk Hv. eapply selection_same; [| | |exact (Hval Hk Hv)]; auto.
Qed.
Lemma good_right a x y : app_ok a -> listening a = true -> good a (RightClick x y) (right_click x y a).
Proof.
  intros Ho Hl. pose proof (ao_core _ _ Ho) as Hc. unfold right_click. pose proof (find_numbered (fun t => b_contains (t_bounds t) x y) (a_nodes a)) as F. cbv beta in F.
  assert (Hch : chosen a (RightClick x y) = None) by (unfold chosen; rewrite Hl; auto).
  assert (Hp : policies_toggled a (RightClick x y) = false) by (unfold policies_toggled; rewrite andb_false_r; auto).
  assert (Hdis : displacement a (RightClick x y) = (0, 0)) by (unfold displacement; rewrite Hl; auto).
  destruct (find _ (combine _ _)) as [[i t]|]; [|apply good_same; auto]. destruct F as (Hi & Ht & Hf).
  assert (G : good a (RightClick x y) (render true (set_selection a i (a_state a)))) by (apply good_select; auto; [apply (co_state _ _ Hc)|intros []]).
  destruct (render true (set_selection a i (a_state a))) as [a1| |p] eqn:E; cbn [gbind].
  - apply good_table. auto.
  - destruct G as [(a' & E' & _)|[_ [q E']]]; discriminate.
  - exfalso. destruct (render_again n Hd Hroom (set_selection a i (a_state a)) (core_selection n a i _ Hc Hi (co_state _ _ Hc)) (update_selection a i _ (screen_update n a Ho))) as (a' & E' & _). congruence.
Qed.
Lemma good_policy scs a e : app_ok a -> chosen a e = None -> policies_toggled a e = true -> displacement a e = (0, 0) -> good a e (toggle_ignore_policy scs a).
Proof.
  intros Ho Hch Hp Hdis. pose proof (ao_core _ _ Ho) as Hc. destruct (solve_core n Hd Hlinked scs a (a_evidence a) (negb (a_ignore a)) Hc (co_evidence _ _ Hc)) as (n' & m & E & Hc').
  assert (Ea : set_evidence a (a_evidence a) = a) by (destruct a; reflexivity). rewrite Ea in E, Hc'. unfold toggle_ignore_policy. rewrite E.
  destruct (render_again n Hd Hroom _ Hc' (screen_update n a Ho)) as (a' & E' & Ho' & F1 & F2 & F3 & F4 & F5 & F6 & F7 & F8 & HV & HF).
  left. exists a'. split; auto. cbn [a_evidence a_ignore a_nodes set_solution set_ignore] in *. split.
  - apply stepped_still; auto; [rewrite Hch, F1; auto|rewrite Hp; auto].
  - intros _ Hv. eapply selection_same; [| | |exact Hv]; auto.
Qed.
Lemma good_key scs a k : app_ok a -> listening a = true -> good a (Press k) (input_main other_digit scs k a).
Proof.
  intros Ho Hl. pose proof (ao_core _ _ Ho) as Hc. destruct (selected_get n Hlinked a Hc) as (t & v & Et & Es & Ht & Hv & Hn). destruct (node_outcomes n Hd v t Hv Hn) as (_ & _ & _ & Hpos).
  pose proof (co_selected _ _ Hc) as Hs. pose proof (co_state _ _ Hc) as Hst.
  assert (Hch : k <> KEnter -> chosen a (Press k) = None) by (intros Hk; unfold chosen; rewrite Hl; destruct k; congruence).
  assert (Hp : (forall r, k <> KRune r) -> policies_toggled a (Press k) = false) by (intros Hk; unfold policies_toggled; rewrite Hl; destruct k; auto; destruct (Hk _ eq_refl)).
  assert (Hdis : (forall r, k <> KRune r) -> displacement a (Press k) = (0, 0)) by (intros Hk; unfold displacement; rewrite Hl; destruct k; auto; destruct (Hk _ eq_refl)).
  assert (Hsel : forall i s u, 0 <= i < zlen (a_nodes a) -> 0 <= s < zlen (t_outcomes u) -> nth_error (a_nodes a) (Z.to_nat i) = Some u -> valid_selection (set_selection a i s)).
  { intros i s u Hi Hss Hu. rewrite <- (Z2Nat.id i) by lia. eapply selection_at; eauto. }
  assert (Hfirst : forall i, 0 <= i < zlen (a_nodes a) -> valid_selection (set_selection a i 0)).
  { intros i Hi. destruct (sget_in (a_nodes a) i Hi) as (u & Eu & Hin). apply sget_inv in Eu. destruct Eu as [_ Eu]. apply (Hsel i 0 u); auto. destruct (node_in n a u Hc Hin) as (w & Hw & Hnu). destruct (node_outcomes n Hd w u Hw Hnu) as (_ & _ & _ & H). lia. }
  destruct k as [| | | | | |r]; cbn [input_main].
  - apply good_same; auto; try (apply Hch); try (apply Hp); try (apply Hdis); congruence.
  - unfold select_next_node. replace (zlen (a_nodes a) =? 0) with false by lia. pose proof (Z.rem_bound_pos (a_selected a + 1) (zlen (a_nodes a)) ltac:(lia) ltac:(lia)).
    apply good_select; auto; try lia; try (apply Hch); try (apply Hp); try (apply Hdis); congruence.
  - unfold select_previous_node. cbv zeta. assert (0 <= (if a_selected a - 1 <? 0 then zlen (a_nodes a) - 1 else a_selected a - 1) < zlen (a_nodes a)) by (destruct (a_selected a - 1 <? 0) eqn:E; lia).
    apply good_select; auto; try lia; try (apply Hch); try (apply Hp); try (apply Hdis); congruence.
  - assert (Ea : set_selection a (a_selected a) (a_state a) = a) by (destruct a; reflexivity). assert (Eg : (let! a := input_enter scs a in render true a) = (let! a := input_enter scs (set_selection a (a_selected a) (a_state a)) in render true a)) by (rewrite Ea; reflexivity). rewrite Eg. clear Eg. apply (good_enter scs a (Press KEnter) (a_selected a) (a_state a) t); auto.
    + unfold chosen. rewrite Hl, Es. auto.
    + apply Hp. congruence.
    + apply Hdis. congruence.
    + intros Hu Hz. split; auto. left. split; auto. exists t. split; auto. split; auto. intros E. apply kind_utility in E. congruence.
  - destruct (save_ok n Hd Hlinked a Hc) as (d & _ & E & _). rewrite E. apply good_same; auto; try (apply Hch); try (apply Hp); try (apply Hdis); congruence.
  - apply good_move; auto; try (apply Hch); try (apply Hp); try congruence. rewrite Es. apply Hdis. congruence.
  - specialize (Hch ltac:(congruence)). clear Hp Hdis.
    assert (Hp : r <> rune "p" -> policies_toggled a (Press (KRune r)) = false) by (intros H; unfold policies_toggled; rewrite Hl; cbn [andb]; apply Z.eqb_neq; auto).
    assert (Hdis : r <> rune "w" -> r <> rune "a" -> r <> rune "s" -> r <> rune "d" -> displacement a (Press (KRune r)) = (0, 0)).
    { intros H1 H2 H3 H4. unfold displacement. rewrite Hl, Es. rewrite !(proj2 (Z.eqb_neq _ _)) by auto. auto. }
    destruct (r =? rune " ") eqn:E1.
    { apply Z.eqb_eq in E1. rewrite Et. cbn [gbind]. replace (zlen (t_outcomes t) =? 0) with false by lia. pose proof (Z.rem_bound_pos (a_state a + 1) (zlen (t_outcomes t)) ltac:(lia) Hpos).
      apply good_select; auto; try lia; try (apply Hp; subst r; discriminate); [apply Hdis; subst r; discriminate|]. intros _ _. apply (Hsel _ _ t); auto. }
    destruct (is_digit other_digit r) eqn:E2.
    { unfold select_node_outcome. destruct ((48 <=? r) && (r <=? 57)) eqn:E3.
      - assert (Hr : 48 <= r <= 57) by (rewrite andb_true_iff, !Z.leb_le in E3; exact E3). assert (Hp' : policies_toggled a (Press (KRune r)) = false) by (apply Hp; intros Hrr; rewrite Hrr in Hr; destruct Hr as [_ Hr]; apply Hr; reflexivity). assert (Hdis' : displacement a (Press (KRune r)) = (0, 0)) by (apply Hdis; intros Hrr; rewrite Hrr in Hr; destruct Hr as [_ Hr]; apply Hr; reflexivity).
        destruct (0 <=? r - 48 - 1) eqn:E4; [|apply good_same; auto]. rewrite Et. cbn [gbind]. destruct (_ <? zlen (t_outcomes t)) eqn:E5; [|apply good_same; auto]. apply good_select; auto; try lia. intros _ _. apply (Hsel _ _ t); auto. lia.
      - right. split; [|eauto]. split; auto. right. exists r. unfold is_digit in E2. destruct (r <=? 255) eqn:E4; [congruence|]. split; auto. split; [lia|auto]. }
    destruct (r =? rune "h") eqn:E3; [apply Z.eqb_eq in E3; apply good_same; auto; [apply Hp|apply Hdis]; subst r; discriminate|].
    destruct (r =? rune "i") eqn:E4; [apply Z.eqb_eq in E4; apply good_same; auto; [apply Hp|apply Hdis]; subst r; discriminate|].
    destruct (r =? rune "t") eqn:E5; [apply Z.eqb_eq in E5; apply good_table; apply good_same; auto; [apply Hp|apply Hdis]; subst r; discriminate|].
    destruct (r =? rune "p") eqn:E6.
    { apply Z.eqb_eq in E6. apply good_policy; auto; [unfold policies_toggled; rewrite Hl; cbn [andb]; apply Z.eqb_eq; auto|apply Hdis; subst r; discriminate]. }
    apply good_move; auto; [apply Hp; apply Z.eqb_neq; auto|]. rewrite Es. unfold displacement. rewrite Hl, Es. reflexivity.
Qed.
Theorem handle_step scs e a : app_ok a -> good a e (handle other_digit scs e a).
Proof.
  intros Ho. unfold handle. assert (Hoff : listening a = false -> chosen a e = None /\ policies_toggled a e = false /\ displacement a e = (0, 0)).
  { intros Hl. unfold chosen, policies_toggled, displacement. rewrite Hl. auto. }
  destruct (a_running a) eqn:Er; cbn [negb].
  - destruct (a_page a) eqn:Ep.
    + assert (Hl : listening a = true) by (apply listening_on; auto). destruct e; [apply good_key|apply good_left|apply good_right]; auto.
    + all: destruct Hoff as (H1 & H2 & H3); [unfold listening; rewrite Er, Ep; auto|].
      all: destruct e as [[]| |]; apply good_same; auto.
    + all: destruct Hoff as (H1 & H2 & H3); [unfold listening; rewrite Er, Ep; auto|].
      all: destruct e as [[]| |]; apply good_same; auto.
    + all: destruct Hoff as (H1 & H2 & H3); [unfold listening; rewrite Er, Ep; auto|].
      all: destruct e as [[]| |]; apply good_same; auto.
  - destruct Hoff as (H1 & H2 & H3); [unfold listening; rewrite Er; auto|]. apply good_same; auto.
Qed.
End Step.
End Session.
