(** The colors on the screen. *)
From Coq Require Import ZArith List Bool String Lia.
From Verif Require Import Num GoBase VarModel GoFacts CliModel CliFacts NetModel NetNew SpecNet TrainFacts TuiModel SpecTui SpecApp SpecScreen TuiGrid TuiDraw TuiCanvas TuiApp TuiTable TuiEvents TuiSession TuiStart TuiTwice TuiMore.
Import ListNotations.
Open Scope string_scope.
Open Scope list_scope.
Open Scope Z_scope.

Definition tag (c : Z) : string := nth (Z.to_nat c) color_tags "".
Lemma tag_get c : 0 <= c < 16 -> sget color_tags c = Ok (tag c).
Proof. intros H. destruct (color_tag_ok c H) as (s & E). rewrite E. f_equal. apply sget_inv in E. destruct E as [_ E]. unfold tag. symmetry. apply nth_error_nth. auto. Qed.
Lemma tag_inj c d : 0 <= c < 16 -> 0 <= d < 16 -> tag c = tag d -> c = d.
Proof.
  intros Hc Hd E. assert (G : Z.to_nat c = Z.to_nat d); [|lia]. unfold tag in E.
  assert (N : NoDup color_tags) by (unfold color_tags; repeat constructor; cbn [In]; intuition discriminate).
  rewrite (NoDup_nth color_tags "") in N. apply N; auto; change (List.length color_tags) with 16%nat; lia.
Qed.

(** The colors of one line. *)
Fixpoint line_hues (prev : Z) (cur : string) (colors : list Z) : list string :=
  match colors with
  | [] => []
  | c :: rest => let s := if c =? prev then cur else tag c in s :: line_hues c s rest
  end.
Definition before_hues (hues : list string) (v : list (list string)) : list (list string) := match v with line :: rest => (hues ++ line) :: rest | [] => [hues] end.
Lemma text_colors_cons s l : exists line more, text_colors s l = line :: more.
Proof. revert s. induction l as [|[t|r|] l IH]; intros s; cbn [text_colors]; eauto. destruct (IH s) as (line & more & ->). eauto. Qed.
Lemma line_tokens_hues : forall cells prev cur, (forall r c, In (r, c) cells -> 0 <= c < 16) -> exists l s, line_tokens prev cells = Ok (l, last (map snd cells) prev) /\
  forall more, text_colors cur (l ++ more) = before_hues (line_hues prev cur (map snd cells)) (text_colors s more).
Proof.
  induction cells as [|[r c] cells IH]; intros prev cur Hk; cbn [line_tokens].
  - exists [], cur. split; auto. intros more. cbn [List.app map line_hues]. destruct (text_colors_cons cur more) as (line & rest & ->). reflexivity.
  - destruct (IH c (if c =? prev then cur else tag c)) as (l & s & E & V); [intros; eapply Hk; right; eauto|].
    assert (El : last (map snd ((r, c) :: cells)) prev = last (map snd cells) c) by (cbn [map snd]; clear; generalize (map snd cells) as m; induction m as [|x m IH]; auto; cbn [last]; destruct m; auto).
    assert (HV : forall more, text_colors (if c =? prev then cur else tag c) (TRune r :: l ++ more) = before_hues (line_hues prev cur (map snd ((r, c) :: cells))) (text_colors s more)).
    { intros more. cbn [text_colors]. rewrite V. destruct (text_colors_cons s more) as (line & rest & ->). reflexivity. }
    rewrite El. destruct (c =? prev); cbn [negb].
    + cbn [gbind]. rewrite E. cbn [gbind]. eexists _, s. split; [reflexivity|]. intros more. cbn [List.app]. apply HV.
    + rewrite (tag_get c) by (eapply Hk; left; eauto). cbn [gbind]. rewrite E. cbn [gbind]. eexists _, s. split; [reflexivity|]. intros more. cbn [List.app text_colors]. apply HV.
Qed.
(** The colors of all lines. *)
Fixpoint text_hues (prev : Z) (lines : list (list Z)) : list (list string) :=
  match lines with
  | [] => []
  | colors :: rest => line_hues prev "[-]" colors :: text_hues (last colors prev) rest
  end.
Lemma map_snd_combine {X Y} (l : list X) (m : list Y) : List.length l = List.length m -> map snd (combine l m) = m.
Proof. revert m. induction l as [|x l IH]; intros [|y m] E; simpl in *; try lia; auto. f_equal. apply IH. lia. Qed.
Lemma text_tokens_hues : forall lines prev, (forall c d, In (c, d) lines -> List.length c = List.length d /\ forall k, In k d -> 0 <= k < 16) ->
  exists l, text_tokens prev lines = Ok l /\ (lines <> [] -> text_colors "[-]" l = text_hues prev (map snd lines)) /\ (lines = [] -> l = []).
Proof.
  induction lines as [|[c d] lines IH]; intros prev Hk; cbn [text_tokens].
  - exists []. split; auto. split; auto. congruence.
  - destruct (Hk c d (or_introl eq_refl)) as [Hl Hd].
    destruct (line_tokens_hues (combine c d) prev "[-]") as (l & s & E & V); [intros r k Hin; apply Hd; eapply in_combine_r; eauto|].
    rewrite map_snd_combine in E, V by auto.
    destruct (IH (last d prev)) as (m & Em & Vm & Nm); [intros; apply Hk; right; auto|].
    rewrite E. cbn [gbind]. rewrite (tag_get color_white) by (unfold color_white; lia). cbn [gbind]. rewrite Em. cbn [gbind]. eexists. split; [reflexivity|]. split; [|discriminate]. intros _.
    rewrite V. replace (tag color_white) with "[-]" by reflexivity. cbn [text_colors map snd text_hues]. destruct lines as [|p lines].
    + rewrite Nm by auto. cbn. rewrite app_nil_r. auto.
    + cbn [List.app text_colors]. rewrite Vm by discriminate. cbn [before_hues]. rewrite app_nil_r. auto.
Qed.

(** Which color a character gets. *)
Lemma line_hue : forall colors prev cur x c, nth_error colors x = Some c ->
  nth_error (line_hues prev cur colors) x = Some (if forallb (fun k => k =? prev) (firstn (S x) colors) then cur else tag c).
Proof.
  induction colors as [|k colors IH]; intros prev cur [|x] c E; try discriminate.
  - injection E as ->. cbn [line_hues nth_error firstn forallb]. rewrite andb_true_r. destruct (c =? prev); auto.
  - cbn [line_hues nth_error]. rewrite (IH _ _ x c E). cbn [nth_error] in E. change (firstn (S (S x)) (k :: colors)) with (k :: firstn (S x) colors). cbn [forallb]. destruct (Z.eqb_spec k prev) as [->|Hn]; cbn [andb]; auto.
    destruct (forallb (fun j => j =? k) (firstn (S x) colors)) eqn:F; auto. f_equal. f_equal. rewrite forallb_forall in F.
    assert (Hin : In c (firstn (S x) colors)) by (apply (nth_error_In _ x); rewrite nth_error_firstn_lt; auto; lia). apply F in Hin. lia.
Qed.

(** ** The grid of colors *)
Lemma find_app {X} (f : X -> bool) l m : find f (l ++ m) = match find f l with Some x => Some x | None => find f m end.
Proof. induction l as [|x l IH]; auto. cbn [List.app find]. destruct (f x); auto. Qed.
Lemma topmost V y x l : (forall t, V t y x <> None -> inside (t_bounds t) x y = true) -> (forall t, In t l -> inside (t_bounds t) x y = true -> V t y x <> None) ->
  layers V l y x = match find (fun t => inside (t_bounds t) x y) (rev l) with Some t => V t y x | None => None end.
Proof.
  intros H1. induction l as [|t l IH]; intros H2; auto. rewrite layers_cons. cbn [rev]. rewrite find_app. rewrite IH by (intros; apply H2; auto; right; auto).
  destruct (find _ (rev l)) as [u|] eqn:E.
  - apply find_some in E. destruct E as [Hu Hi]. rewrite <- in_rev in Hu. destruct (V u y x) eqn:Ev; auto. exfalso. apply (H2 u (or_intror Hu) Hi). auto.
  - cbn [find]. destruct (inside (t_bounds t) x y) eqn:Ei; auto. destruct (V t y x) eqn:Ev; auto. exfalso. assert (V t y x <> None) by congruence. apply H1 in H. congruence.
Qed.
Lemma node_color_tag v c : known_color v -> node_color v = Ok c -> 0 <= c < 16 /\ tag c = node_tag v.
Proof.
  unfold node_color, node_tag. intros [->|Hin].
  - cbn [String.eqb]. destruct (nv_type v); intros E; injection E as <-; split; reflexivity || (unfold color_white, color_green, color_blue; lia).
  - cbn [color_names In] in Hin. repeat (destruct Hin as [<-|Hin]; [intros E; vm_compute in E; injection E as <-; split; [lia|reflexivity]|]). destruct Hin.
Qed.

Section Reached.
Variables (n : network xnum) (ev : list (string * string)).
Hypothesis Hso : solvable n.
Hypothesis Hsw : showable n.
Hypothesis Hev : valid_observations n ev.
Variable other_digit : Z -> bool.
Variable scp : sched.
Lemma row_cells W H (g : grid) y row : shaped W H g -> nth_error g (Z.to_nat y) = Some row -> 0 <= y < H -> zlen row = W /\ forall x c, 0 <= x < W -> (px g y x = Ok c <-> nth_error row (Z.to_nat x) = Some c).
Proof.
  intros [S1 S2] E Hy. pose proof (S2 row (nth_error_In _ _ E)) as Hw. split; auto. intros x c Hx. unfold px. rewrite <- (Z2Nat.id y) by lia. rewrite sget_nat, E. cbn [gbind]. rewrite <- (Z2Nat.id x) by lia. rewrite sget_nat, Nat2Z.id. destruct (nth_error row (Z.to_nat x)); split; congruence.
Qed.
(** The grid of colors is as specified. *)
Lemma grid_tags a : reached other_digit scp n ev a -> exists W H, 1 <= W /\ 1 <= H /\ shaped W H (a_canvas a) /\ shaped W H (a_colors a) /\ known_cells W H (a_colors a) /\ text_tokens 0 (combine (a_canvas a) (a_colors a)) = Ok (a_text a) /\
  forall y x, 0 <= y < H -> 0 <= x < W -> exists c, px (a_colors a) y x = Ok c /\ 0 <= c < 16 /\ tag c = cell_tag a y x.
Proof.
  intros Hr. destruct (reached_ok n ev Hso Hsw Hev other_digit scp a Hr) as (n' & tables & [R1 R2 R3 R4 R5 R6 R7 R8]). destruct (ao_screen _ _ R6) as (W & H & HW & HH & [O1 O2 O3 O4 O5 O6 O7 O8 O9]). exists W, H. do 6 (split; [assumption|]).
  intros y x Hy Hx. unfold cell_tag.
  assert (V1 : forall V, (V = picture \/ V = tint) -> forall t, V t y x <> None -> inside (t_bounds t) x y = true) by (intros V HV t; change inside with b_contains; destruct HV as [-> | ->]; unfold picture, tint, image; destruct (b_contains _ _ _); congruence).
  assert (V2 : forall t, In t (a_nodes a) -> inside (t_bounds t) x y = true -> exists c, tint t y x = Some c /\ 0 <= c < 16 /\ tag c = node_tag (t_var t)).
  { intros t Ht Hi. destruct (O1 t Ht) as (Hk & _). destruct (node_in n' a t (ao_core _ _ R6) Ht) as (v & _ & Hno). destruct (no_tint t Hk) as (c & Ec & Hc). destruct (node_color_tag _ _ (nd_color _ _ _ Hno) Ec) as [Hc16 Htag]. exists c. split; auto.
    unfold inside in Hi. pose proof Hi as Hi'. rewrite !andb_true_iff in Hi'. destruct (px_ok _ _ (t_colors t) (y - b_y (t_bounds t)) (x - b_x (t_bounds t)) (no_shape t Hk)) as (k & Ek); [lia|lia|].
    unfold tint, image. change (b_contains (t_bounds t) x y) with (inside (t_bounds t) x y). unfold inside. rewrite Hi, Ek. f_equal. unfold px in Ek. destruct (sget (t_colors t) (y - b_y (t_bounds t))) as [row| |] eqn:Er; cbn [gbind] in Ek; try discriminate. apply sget_inv in Er, Ek. eapply Hc; eapply nth_error_In; [apply Er|apply Ek]. }
  assert (V3 : forall t, In t (a_nodes a) -> inside (t_bounds t) x y = true -> tint t y x <> None) by (intros t Hin Hi; destruct (V2 t Hin Hi) as (c & E & _); congruence).
  pose proof (topmost tint y x (a_nodes a) (V1 tint (or_intror eq_refl)) V3) as Ht.
  destruct (find (fun t => inside (t_bounds t) x y) (rev (a_nodes a))) as [t|] eqn:Ef.
  - apply find_some in Ef. destruct Ef as [Hin Hi]. rewrite <- in_rev in Hin. destruct (V2 t Hin Hi) as (c & Ec & Hc & Etag). exists c. split; auto. apply O8; auto. rewrite Ht. auto.
  - exists color_white. split; [|split; [unfold color_white; lia|reflexivity]]. destruct O5 as (bg & _ & _ & Pb). apply Pb; auto. destruct (layers picture (a_nodes a) y x) as [r|] eqn:E; auto. exfalso. assert (En : layers picture (a_nodes a) y x <> None) by congruence. apply layers_some in En. destruct En as (t & Hin & Hv).
    apply (V1 picture (or_introl eq_refl)) in Hv. rewrite in_rev in Hin. apply (find_none _ _ Ef t) in Hin. congruence.
Qed.
Lemma text_line : forall rows prev y row, nth_error rows y = Some row -> (forall r, In r rows -> r <> []) ->
  nth_error (text_hues prev rows) y = Some (line_hues (match y with O => prev | S k => match nth_error rows k with Some r => last r 0 | None => 0 end end) "[-]" row).
Proof.
  induction rows as [|r rows IH]; intros prev [|y] row E Hne; try discriminate.
  - injection E as ->. reflexivity.
  - cbn [text_hues nth_error]. cbn [nth_error] in E. rewrite (IH _ y row E) by (intros; apply Hne; right; auto). destruct y as [|y]; [|reflexivity]. cbn [nth_error]. do 2 f_equal.
    assert (Hr : r <> []) by (apply Hne; left; auto). clear - Hr. revert Hr. induction r as [|z r IH]; intros Hr; [congruence|]. destruct r; auto. change (last (z :: z0 :: r) prev) with (last (z0 :: r) prev). change (last (z :: z0 :: r) 0) with (last (z0 :: r) 0). apply IH. discriminate.
Qed.
Lemma last_nth {X} (l : list X) d : l <> [] -> nth_error l (List.length l - 1) = Some (last l d).
Proof. intros H. rewrite (app_removelast_last d H) at 1 2. rewrite app_length. cbn [List.length]. rewrite nth_error_app2 by lia. replace (_ - _ - _)%nat with 0%nat by lia. reflexivity. Qed.
Theorem colors_shown a : reached other_digit scp n ev a -> exists W H, 1 <= W /\ 1 <= H /\ shaped W H (a_canvas a) /\
  forall y x, 0 <= y < H -> 0 <= x < W ->
    color_at a y x = Some (if forallb (fun x' => String.eqb (cell_tag a y x') (if y =? 0 then "[black]" else cell_tag a (y - 1) (W - 1))) (zrange 0 (x + 1)) then "[-]" else cell_tag a y x).
Proof.
  intros Hr. destruct (grid_tags a Hr) as (W & H & HW & HH & O2 & O3 & O4 & O9 & Hg). exists W, H. split; auto. split; auto. split; auto. intros y x Hy Hx.
  pose proof (known_rows W H _ O3 O4) as Hkc. destruct (text_tokens_hues (combine (a_canvas a) (a_colors a)) 0) as (l & E & V & _).
  { intros c d Hin. pose proof (in_combine_l _ _ _ _ Hin) as Ic. pose proof (in_combine_r _ _ _ _ Hin) as Id. split; [|intros k Hk'; eapply Hkc; eauto]. apply (proj2 O2) in Ic. apply (proj2 O3) in Id. unfold zlen in *. lia. }
  assert (l = a_text a) by congruence. subst l. assert (Hlen : List.length (a_canvas a) = List.length (a_colors a)) by (pose proof (proj1 O2); pose proof (proj1 O3); unfold zlen in *; lia).
  rewrite map_snd_combine in V by auto. assert (Hne : combine (a_canvas a) (a_colors a) <> []) by (pose proof (proj1 O3) as L; destruct (a_canvas a), (a_colors a); cbn in *; try discriminate; unfold zlen in L; cbn in L; lia). specialize (V Hne).
  unfold color_at. rewrite V.
  assert (Hrow : forall y, 0 <= y < H -> exists row, nth_error (a_colors a) (Z.to_nat y) = Some row) by (intros y' Hy'; destruct (nth_error (a_colors a) (Z.to_nat y')) eqn:En; eauto; apply nth_error_None in En; pose proof (proj1 O3) as L; unfold zlen in L; lia).
  destruct (Hrow y Hy) as (row & Erow). destruct (row_cells W H _ y row O3 Erow Hy) as [Hw Hcell].
  rewrite (text_line (a_colors a) 0 (Z.to_nat y) row Erow) by (intros r Hin; apply (proj2 O3) in Hin; unfold zlen in Hin; destruct r; [cbn in Hin; lia|discriminate]).
  destruct (Hg y x Hy Hx) as (c & Ec & Hc & Etag). apply (Hcell x c Hx) in Ec. rewrite (line_hue row _ "[-]" _ c Ec). rewrite <- Etag.
  set (prev := match Z.to_nat y with O => 0 | S k => match nth_error (a_colors a) k with Some r => last r 0 | None => 0 end end).
  assert (Hp : 0 <= prev < 16 /\ tag prev = if y =? 0 then "[black]" else cell_tag a (y - 1) (W - 1)).
  { unfold prev. destruct (Z.eqb_spec y 0) as [->|Hn]; [change (Z.to_nat 0) with 0%nat; cbv iota; split; [lia|reflexivity]|]. destruct (Z.to_nat y) as [|k] eqn:Ek; [lia|]. destruct (Hrow (y - 1) ltac:(lia)) as (r & Er). destruct (row_cells W H _ (y - 1) r O3 Er ltac:(lia)) as [Hw1 Hc1]. replace (Z.to_nat (y - 1)) with k in Er by lia. rewrite Er.
    destruct (Hg (y - 1) (W - 1) ltac:(lia) ltac:(lia)) as (c1 & Ec1 & Hc16 & Et1). apply Hc1 in Ec1; [|lia]. assert (Hr0 : r <> []) by (intros ->; unfold zlen in Hw1; cbn in Hw1; lia). pose proof (last_nth r 0 Hr0) as El. replace (Z.to_nat (W - 1)) with (List.length r - 1)%nat in Ec1 by (unfold zlen in Hw1; lia). assert (last r 0 = c1) by congruence. subst c1. auto. }
  destruct Hp as [Hp16 Hp]. rewrite <- Hp. f_equal.
  replace (forallb (fun k => k =? prev) (firstn (S (Z.to_nat x)) row)) with (forallb (fun x' => String.eqb (cell_tag a y x') (tag prev)) (zrange 0 (x + 1))); auto.
  apply eq_true_iff_eq. rewrite !forallb_forall. split.
  - intros F k Hk. apply In_nth_error in Hk. destruct Hk as [i Hi]. assert (Hix : (i < S (Z.to_nat x))%nat) by (assert (L : (i < List.length (firstn (S (Z.to_nat x)) row))%nat) by (apply nth_error_Some; congruence); rewrite firstn_length in L; lia).
    rewrite nth_error_firstn_lt in Hi by auto. specialize (F (Z.of_nat i)). rewrite String.eqb_eq in F. destruct (Hg y (Z.of_nat i) Hy ltac:(lia)) as (k' & Ek & Hk16 & Etk). apply Hcell in Ek; [|lia]. rewrite Nat2Z.id in Ek. assert (k' = k) by congruence. subst k'. rewrite <- Etk in F. apply Z.eqb_eq. apply tag_inj; auto. apply F. apply in_zrange. lia.
  - intros F x' Hx'. apply in_zrange in Hx'. destruct (Hg y x' Hy ltac:(lia)) as (k & Ek & Hk16 & Etk). apply Hcell in Ek; [|lia]. rewrite String.eqb_eq, <- Etk. f_equal. apply Z.eqb_eq. apply F. apply (nth_error_In _ (Z.to_nat x')). rewrite nth_error_firstn_lt by lia. auto.
Qed.
End Reached.
