(** Drawing on grids. *)
From Coq Require Import ZArith List Bool String Lia.
From Verif Require Import Num GoBase VarModel GoFacts CliModel CliFacts NetModel TrainFacts TuiModel.
Import ListNotations.
Open Scope string_scope.
Open Scope list_scope.
Open Scope Z_scope.

Definition shaped (w h : Z) (g : grid) : Prop := zlen g = h /\ forall row, In row g -> zlen row = w.
(** The cell in row [y] and column [x]. *)
Definition px (g : grid) (y x : Z) : gores Z := let! row := sget g y in sget row x.

Lemma sget_in {X} (l : list X) i : 0 <= i < zlen l -> exists x, sget l i = Ok x /\ In x l.
Proof.
  intros H. unfold sget. replace (i <? 0) with false by lia. destruct (nth_error l (Z.to_nat i)) as [x|] eqn:E.
  - exists x. split; auto. eapply nth_error_In; eauto.
  - apply nth_error_None in E. unfold zlen in H. lia.
Qed.
Lemma sset_upd {X} (l : list X) i x : 0 <= i < zlen l -> sset l i x = Ok (upd_nth l (Z.to_nat i) x).
Proof. intros H. unfold sset. replace (i <? 0) with false by lia. replace (zlen l <=? i) with false by lia. auto. Qed.
Lemma zlen_upd {X} (l : list X) i x : zlen (upd_nth l i x) = zlen l.
Proof. unfold zlen. rewrite upd_nth_length. auto. Qed.
Lemma sget_upd {X} (l : list X) i j x : 0 <= i < zlen l -> sget (upd_nth l (Z.to_nat i) x) j = if j =? i then Ok x else sget l j.
Proof.
  intros H. unfold sget. destruct (Z.ltb_spec j 0); [destruct (Z.eqb_spec j i); auto; lia|]. rewrite upd_nth_spec.
  destruct (Z.eqb_spec j i).
  - subst. rewrite Nat.eqb_refl. replace (Z.to_nat i <? List.length l)%nat with true; auto. symmetry. apply Nat.ltb_lt. unfold zlen in H. lia.
  - destruct (Nat.eqb_spec (Z.to_nat i) (Z.to_nat j)); auto. lia.
Qed.
Lemma in_upd {X} (l : list X) i x y : In y (upd_nth l i x) -> y = x \/ In y l.
Proof. revert i. induction l as [|a l IH]; intros [|i]; simpl; auto; intros [<-|H]; auto. apply IH in H. tauto. Qed.

Lemma px_ok w h g y x : shaped w h g -> 0 <= y < h -> 0 <= x < w -> exists r, px g y x = Ok r.
Proof.
  intros [H1 H2] Hy Hx. unfold px. destruct (sget_in g y) as (row & -> & Hin); [lia|]. cbn [gbind]. rewrite <- (H2 row Hin) in Hx. destruct (sget_in row x Hx) as (r & -> & _). eauto.
Qed.
Lemma nth_ext_sget {X} (l l' : list X) : zlen l = zlen l' -> (forall i, 0 <= i < zlen l -> sget l i = sget l' i) -> l = l'.
Proof.
  intros Hl H. apply nth_error_ext. intros k. destruct (Nat.lt_ge_cases k (List.length l)) as [Hk|Hk].
  - assert (Hz : 0 <= Z.of_nat k < zlen l) by (unfold zlen; lia). specialize (H _ Hz). rewrite !sget_nat in H.
    destruct (nth_error l k) as [a|] eqn:E1, (nth_error l' k) as [b|] eqn:E2; auto; try discriminate. congruence.
  - unfold zlen in Hl. rewrite (proj2 (nth_error_None l k)), (proj2 (nth_error_None l' k)) by lia. auto.
Qed.
Lemma grid_ext w h g g' : shaped w h g -> shaped w h g' -> (forall y x, 0 <= y < h -> 0 <= x < w -> px g y x = px g' y x) -> g = g'.
Proof.
  intros [H1 H2] [K1 K2] E. apply nth_ext_sget; [lia|]. intros y Hy. rewrite H1 in Hy.
  destruct (sget_in g y) as (r & Er & Hr); [lia|]. destruct (sget_in g' y) as (r' & Er' & Hr'); [lia|]. rewrite Er, Er'. f_equal.
  apply nth_ext_sget; [rewrite (H2 r Hr), (K2 r' Hr'); auto|]. intros x Hx. rewrite (H2 r Hr) in Hx. specialize (E y x Hy Hx). unfold px in E. rewrite Er, Er' in E. exact E.
Qed.

(** ** Drawing *)

(** [F] draws [V] and leaves the rest of the grid. *)
Definition layer := Z -> Z -> option Z.
Definition over (V2 V1 : layer) : layer := fun y x => match V2 y x with Some r => Some r | None => V1 y x end.
Definition blank : layer := fun _ _ => None.
Definition paints (w h : Z) (F : grid -> gores grid) (V : layer) : Prop :=
  forall g, shaped w h g -> exists g', F g = Ok g' /\ shaped w h g' /\
    forall y x, 0 <= y < h -> 0 <= x < w -> px g' y x = match V y x with Some r => Ok r | None => px g y x end.

Lemma paints_none w h : paints w h (fun g => Ok g) blank.
Proof. intros g Hg. exists g. split; auto. Qed.
Lemma paints_seq w h F1 F2 V1 V2 : paints w h F1 V1 -> paints w h F2 V2 -> paints w h (fun g => let! g := F1 g in F2 g) (over V2 V1).
Proof.
  intros H1 H2 g Hg. destruct (H1 g Hg) as (g1 & E1 & S1 & P1). destruct (H2 g1 S1) as (g2 & E2 & S2 & P2). exists g2. rewrite E1. cbn [gbind]. split; auto. split; auto.
  intros y x Hy Hx. rewrite P2 by auto. unfold over. destruct (V2 y x); auto.
Qed.
Lemma paints_ext w h F F' V V' : (forall g, F g = F' g) -> (forall y x, 0 <= y < h -> 0 <= x < w -> V y x = V' y x) -> paints w h F V -> paints w h F' V'.
Proof.
  intros HF HV H g Hg. destruct (H g Hg) as (g' & E & S & P). exists g'. rewrite <- HF. split; auto. split; auto. intros y x Hy Hx. rewrite P, HV by auto. auto.
Qed.
(** The drawings of a list one after the other. *)
Definition layers {X} (V : X -> layer) (l : list X) : layer := fold_left (fun acc p => over (V p) acc) l blank.
Lemma layers_from {X} (V : X -> layer) l : forall acc y x, fold_left (fun acc p => over (V p) acc) l acc y x = over (layers V l) acc y x.
Proof.
  induction l as [|p l IH]; intros acc y x; [reflexivity|]. cbn [fold_left]. rewrite IH. unfold layers at 2. cbn [fold_left].
  pose proof (IH (over (V p) blank) y x) as EQ. set (Q := fold_left _ l (over (V p) blank)) in *. clearbody Q. set (L := layers V l) in *. clearbody L.
  unfold over in *. rewrite EQ. destruct (L y x); auto. destruct (V p y x); auto.
Qed.
Lemma layers_cons {X} (V : X -> layer) p l y x : layers V (p :: l) y x = match layers V l y x with Some r => Some r | None => V p y x end.
Proof.
  unfold layers at 1. cbn [fold_left]. rewrite layers_from. set (L := layers V l). clearbody L. unfold over, blank. destruct (L y x); auto. destruct (V p y x); auto.
Qed.
Lemma layers_some {X} (V : X -> layer) l y x : layers V l y x <> None <-> exists p, In p l /\ V p y x <> None.
Proof.
  induction l as [|p l IH]; [split; [intros H; contradiction H; reflexivity|intros (p & [] & _)]|]. rewrite layers_cons. destruct (layers V l y x) eqn:E.
  - split; [|discriminate]. intros _. destruct IH as [IH _]. destruct IH as (q & Hq & Vq); [discriminate|]. exists q. split; auto. right; auto.
  - split; [intros H; exists p; split; auto; left; auto|]. intros (q & [<-|Hq] & Vq); auto. destruct IH as [_ IH]. exfalso. apply IH; eauto.
Qed.
Lemma paints_list {X} w h (F : grid -> X -> gores grid) V l : (forall p, In p l -> paints w h (fun g => F g p) (V p)) -> paints w h (fun g => foldM F g l) (layers V l).
Proof.
  induction l as [|p l IH]; intros H; cbn [foldM]; [apply paints_none|].
  eapply paints_ext; [| |apply paints_seq; [apply (H p); left; auto|apply IH; intros q Hq; apply H; right; auto]].
  - reflexivity.
  - intros y x _ _. rewrite layers_cons. reflexivity.
Qed.

(** *** One cell *)
Definition dot (y x r : Z) : layer := fun y' x' => if (y' =? y) && (x' =? x) then Some r else None.
Lemma paints_put w h y x r : 0 <= y < h -> 0 <= x < w -> paints w h (fun g => put g y x r) (dot y x r).
Proof.
  intros Hy Hx g [H1 H2]. unfold put. destruct (sget_in g y) as (row & Er & Hin); [lia|]. rewrite Er. cbn [gbind].
  assert (Hrow : 0 <= x < zlen row) by (rewrite (H2 row Hin); auto). rewrite (sset_upd row x r Hrow). cbn [gbind]. rewrite sset_upd by lia.
  eexists. split; [reflexivity|]. split.
  - split; [rewrite zlen_upd; auto|]. intros r0 Hr0. apply in_upd in Hr0. destruct Hr0 as [->|Hr0]; auto. rewrite zlen_upd. auto.
  - intros y' x' Hy' Hx'. unfold px, dot. rewrite sget_upd by lia. destruct (Z.eqb_spec y' y).
    + subst y'. cbn [gbind andb]. rewrite sget_upd by auto. destruct (x' =? x); auto. rewrite Er. auto.
    + cbn [andb]. auto.
Qed.
Definition dots (l : list (Z * Z * Z)) : layer := layers (fun '(y, x, r) => dot y x r) l.
Lemma paints_puts w h l : (forall y x r, In (y, x, r) l -> 0 <= y < h /\ 0 <= x < w) -> paints w h (fun g => puts g l) (dots l).
Proof.
  intros H. unfold puts. eapply paints_ext; [| |apply (paints_list w h (fun g '(y, x, r) => put g y x r) (fun '(y, x, r) => dot y x r) l)].
  - reflexivity.
  - reflexivity.
  - intros [[y x] r] Hin. destruct (H y x r Hin). apply paints_put; auto.
Qed.
Lemma dots_some l y x : dots l y x <> None <-> exists r, In (y, x, r) l.
Proof.
  unfold dots. rewrite layers_some. split.
  - intros ([[y' x'] r] & Hin & Hd). unfold dot in Hd. destruct (Z.eqb_spec y y'); [|contradiction]. destruct (Z.eqb_spec x x'); [|contradiction]. subst. eauto.
  - intros (r & Hin). exists (y, x, r). split; auto. unfold dot. rewrite !Z.eqb_refl. discriminate.
Qed.

(** *** Parts of a row *)
Lemma nth_error_firstn_lt {X} (l : list X) k i : (i < k)%nat -> nth_error (firstn k l) i = nth_error l i.
Proof. revert k i. induction l as [|a l IH]; intros [|k] [|i] H; simpl; auto; try lia. apply IH. lia. Qed.
Definition strip (y lo hi : Z) (src : list Z) : layer := fun y' x' =>
  if (y' =? y) && (lo <=? x') && (x' <? hi) && (x' <? lo + zlen src) then nth_error src (Z.to_nat (x' - lo)) else None.
Lemma copy_into_ok row lo hi src : 0 <= lo <= hi -> hi <= zlen row -> exists row', copy_into row lo hi src = Ok row' /\ zlen row' = zlen row /\
  forall x, 0 <= x < zlen row -> sget row' x = if (lo <=? x) && (x <? hi) && (x <? lo + zlen src) then (match nth_error src (Z.to_nat (x - lo)) with Some r => Ok r | None => Panic PIndex end) else sget row x.
Proof.
  intros Hlo Hhi. unfold copy_into, sslice. replace (lo <? 0) with false by lia. replace (hi <? lo) with false by lia. replace (zlen row <? hi) with false by lia. cbn [orb gbind].
  set (dst := firstn (Z.to_nat (hi - lo)) (skipn (Z.to_nat lo) row)).
  assert (Hd : List.length dst = Z.to_nat (hi - lo)) by (unfold dst; rewrite firstn_length, skipn_length; unfold zlen in *; lia).
  set (mid := firstn (List.length dst) src ++ skipn (List.length src) dst).
  assert (Hm : List.length mid = Z.to_nat (hi - lo)) by (unfold mid; rewrite app_length, firstn_length, skipn_length; lia).
  assert (Hf : List.length (firstn (Z.to_nat lo) row) = Z.to_nat lo) by (rewrite firstn_length; unfold zlen in *; lia).
  eexists. split; [reflexivity|]. split.
  { unfold zlen in *. rewrite !app_length, Hf, Hm, skipn_length. lia. }
  intros x Hx. unfold sget. replace (x <? 0) with false by lia.
  destruct (Z.leb_spec lo x).
  - rewrite nth_error_app2 by lia. rewrite Hf. replace (Z.to_nat x - Z.to_nat lo)%nat with (Z.to_nat (x - lo)) by lia.
    destruct (Z.ltb_spec x hi); cbn [andb].
    + rewrite nth_error_app1 by lia. unfold mid. destruct (Z.ltb_spec x (lo + zlen src)).
      * rewrite nth_error_app1 by (rewrite firstn_length; unfold zlen in *; lia). rewrite nth_error_firstn_lt by lia. auto.
      * rewrite nth_error_app2 by (rewrite firstn_length; unfold zlen in *; lia). rewrite nth_error_skipn', firstn_length. unfold dst.
        replace (List.length src + (Z.to_nat (x - lo) - Nat.min (List.length (firstn (Z.to_nat (hi - lo)) (skipn (Z.to_nat lo) row))) (List.length src)))%nat with (Z.to_nat (x - lo)).
        2:{ fold dst. unfold zlen in *. lia. }
        rewrite nth_error_firstn_lt by lia. rewrite nth_error_skipn'. replace (Z.to_nat lo + Z.to_nat (x - lo))%nat with (Z.to_nat x) by lia. auto.
    + rewrite nth_error_app2 by lia. rewrite Hm, nth_error_skipn'. replace (Z.to_nat hi + (Z.to_nat (x - lo) - Z.to_nat (hi - lo)))%nat with (Z.to_nat x) by lia. auto.
  - rewrite nth_error_app1 by lia. rewrite nth_error_firstn_lt by lia. auto.
Qed.
Lemma paints_copy2 w h y lo hi src : 0 <= y < h -> 0 <= lo <= (match hi with Some k => k | None => w end) -> (match hi with Some k => k | None => w end) <= w ->
  paints w h (fun g => copy2 g y lo hi src) (strip y lo (match hi with Some k => k | None => w end) src).
Proof.
  intros Hy Hlo Hhi g [H1 H2]. unfold copy2. destruct (sget_in g y) as (row & Er & Hin); [lia|]. rewrite Er. cbn [gbind]. rewrite (H2 row Hin).
  set (k := match hi with Some k => k | None => w end) in *.
  destruct (copy_into_ok row lo k src Hlo) as (row' & E & Hl & Hp); [rewrite (H2 row Hin); auto|]. rewrite E. cbn [gbind]. rewrite sset_upd by lia.
  eexists. split; [reflexivity|]. split.
  - split; [rewrite zlen_upd; auto|]. intros r0 Hr0. apply in_upd in Hr0. destruct Hr0 as [->|Hr0]; auto. rewrite Hl. auto.
  - intros y' x' Hy' Hx'. unfold px, strip. rewrite sget_upd by lia. destruct (Z.eqb_spec y' y).
    + subst y'. cbn [gbind andb]. rewrite Hp by (rewrite (H2 row Hin); auto). destruct (_ && _ && _) eqn:Ec; [|rewrite Er; auto].
      destruct (nth_error src (Z.to_nat (x' - lo))) eqn:En; auto. apply nth_error_None in En. unfold zlen in *. lia.
    + cbn [andb]. auto.
Qed.
Lemma strip_some y lo hi src y' x' : strip y lo hi src y' x' <> None <-> y' = y /\ lo <= x' < hi /\ x' < lo + zlen src.
Proof.
  unfold strip. destruct (Z.eqb_spec y' y); cbn [andb]; [|split; [intros H; contradiction H; auto|lia]].
  destruct (Z.leb_spec lo x'); cbn [andb]; [|split; [intros H'; contradiction H'; auto|lia]].
  destruct (Z.ltb_spec x' hi); cbn [andb]; [|split; [intros H'; contradiction H'; auto|lia]].
  destruct (Z.ltb_spec x' (lo + zlen src)); [|split; [intros H'; contradiction H'; auto|lia]].
  rewrite nth_error_Some. unfold zlen in *. lia.
Qed.

(** *** New and cleared grids *)
Lemma make_grid_ok b zero : 0 <= b_w b -> 0 <= b_h b -> exists g, make_grid b zero = Ok g /\ shaped (b_w b) (b_h b) g /\ forall row, In row g -> row = repeat zero (Z.to_nat (b_w b)).
Proof.
  intros Hw Hh. unfold make_grid, smake. replace (b_h b <? 0) with false by lia. replace (b_w b <? 0) with false by lia. cbn [gbind].
  rewrite (mapM_ok _ (fun _ => repeat zero (Z.to_nat (b_w b)))) by auto. eexists. split; [reflexivity|].
  assert (Hrow : forall row, In row (map (fun _ : unit => repeat zero (Z.to_nat (b_w b))) (repeat tt (Z.to_nat (b_h b)))) -> row = repeat zero (Z.to_nat (b_w b)))
    by (intros row Hr; apply in_map_iff in Hr; destruct Hr as (u & <- & _); auto).
  split; auto. split; [unfold zlen; rewrite map_length, repeat_length; lia|]. intros row Hr. rewrite (Hrow row Hr). unfold zlen. rewrite repeat_length. lia.
Qed.
Lemma clear_shaped w h z g : shaped w h g -> shaped w h (clear_grid z g).
Proof.
  intros [H1 H2]. unfold clear_grid. split; [unfold zlen in *; rewrite map_length; auto|]. intros row Hr. apply in_map_iff in Hr. destruct Hr as (r & <- & Hin).
  unfold zlen. rewrite map_length. apply H2. auto.
Qed.
