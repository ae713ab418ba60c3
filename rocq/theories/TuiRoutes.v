(** The lines between the nodes on the screen. *)
From Coq Require Import ZArith List Bool String Lia.
From Verif Require LogicFacts.
From Verif Require Import Num GoBase VarModel GoFacts CliModel CliFacts NetModel NetNew SpecNet TrainFacts TuiModel SpecTui SpecApp SpecScreen TuiGrid TuiDraw TuiCanvas TuiApp TuiTable TuiEvents TuiSession TuiStart TuiTwice TuiMore TuiPicture.
Import ListNotations.
Open Scope string_scope.
Open Scope list_scope.
Open Scope Z_scope.

(** ** Lines *)
Definition end_of (p : Z * Z) (l : list mark) : Z * Z := fold_left (fun _ '((y, x, _) : mark) => (y, x)) l p.
Lemma leads_app l m : forall p, leads p (l ++ m) <-> leads p l /\ leads (end_of p l) m.
Proof. induction l as [|[[y x] c] l IH]; intros p; cbn [leads List.app]; [cbn; tauto|]. rewrite IH. cbn [end_of fold_left]. unfold end_of. tauto. Qed.
Lemma end_app l m p : end_of p (l ++ m) = end_of (end_of p l) m.
Proof. unfold end_of. apply fold_left_app. Qed.
Lemma next_sym (p q : Z * Z) : next_to p q -> next_to q p.
Proof. unfold next_to. lia. Qed.
Definition head_of (l : list mark) (q : Z * Z) : Z * Z := match l with [] => q | m :: _ => cell_of m end.
Lemma joins_app l m : forall p q, joins p (l ++ m) q <-> joins p l (head_of m q) /\ joins (end_of p l) m q.
Proof.
  induction l as [|[[y x] c] l IH]; intros p q; cbn [joins List.app]; [cbn; tauto|]. rewrite IH. cbn [end_of fold_left cell_of]. unfold end_of. destruct l as [|m' l]; cbn [List.app]; [destruct m; cbn [head_of]; tauto|tauto].
Qed.
Lemma connects_sym c p q r : connects c p q r -> connects c r q p.
Proof. unfold connects. intuition congruence. Qed.
Section Run.
Variables (pos : Z -> Z * Z) (c : Z).
Hypothesis Hpos : forall i, next_to (pos i) (pos (i + 1)).
Notation at_pos := (fun i => (fst (pos i), snd (pos i), c)).
Lemma run_up : forall n a, leads (pos (a - 1)) (map at_pos (zrange a (a + Z.of_nat n))) /\ end_of (pos (a - 1)) (map at_pos (zrange a (a + Z.of_nat n))) = pos (a + Z.of_nat n - 1).
Proof.
  induction n as [|n IH]; intros a.
  - replace (a + Z.of_nat 0) with a by lia. unfold zrange. replace (Z.to_nat (a - a)) with 0%nat by lia. cbn. auto.
  - rewrite zrange_cons by lia. cbn [map leads]. specialize (IH (a + 1)). replace (a + 1 - 1) with a in IH by lia. replace (a + Z.of_nat (S n)) with (a + 1 + Z.of_nat n) by lia. destruct IH as [I1 I2]. rewrite <- ?surjective_pairing. split; [split; auto|].
    + pose proof (Hpos (a - 1)) as H. replace (a - 1 + 1) with a in H by lia. auto.
    + unfold end_of. cbn [fold_left]. rewrite <- ?surjective_pairing. replace (let '(y, x) := pos a in (y, x)) with (pos a) by (destruct (pos a); auto). exact I2.
Qed.
Lemma run_down : forall n a, leads (pos (a + Z.of_nat n)) (map at_pos (rev (zrange a (a + Z.of_nat n)))) /\ end_of (pos (a + Z.of_nat n)) (map at_pos (rev (zrange a (a + Z.of_nat n)))) = pos a.
Proof.
  induction n as [|n IH]; intros a.
  - replace (a + Z.of_nat 0) with a by lia. unfold zrange. replace (Z.to_nat (a - a)) with 0%nat by lia. cbn. auto.
  - rewrite zrange_cons by lia. cbn [rev]. rewrite map_app. specialize (IH (a + 1)). replace (a + Z.of_nat (S n)) with (a + 1 + Z.of_nat n) by lia. destruct IH as [I1 I2]. rewrite leads_app, end_app, I2. cbn [map leads end_of fold_left]. rewrite <- ?surjective_pairing. split; auto. split; auto. split; auto. apply next_sym. apply Hpos.
Qed.
Lemma run_up_to a b : a <= b -> leads (pos (a - 1)) (map at_pos (zrange a b)) /\ end_of (pos (a - 1)) (map at_pos (zrange a b)) = pos (b - 1).
Proof. intros H. pose proof (run_up (Z.to_nat (b - a)) a) as G. replace (a + Z.of_nat (Z.to_nat (b - a))) with b in G by lia. exact G. Qed.
Lemma run_down_to a b : a <= b -> leads (pos b) (map at_pos (rev (zrange a b))) /\ end_of (pos b) (map at_pos (rev (zrange a b))) = pos a.
Proof. intros H. pose proof (run_down (Z.to_nat (b - a)) a) as G. replace (a + Z.of_nat (Z.to_nat (b - a))) with b in G by lia. exact G. Qed.
Hypothesis Hcon : forall i, connects c (pos (i - 1)) (pos i) (pos (i + 1)).
Lemma at_cell i : cell_of (at_pos i) = pos i.
Proof. cbn [cell_of]. rewrite <- ?surjective_pairing. destruct (pos i); auto. Qed.
Lemma join_up : forall n a, joins (pos (a - 1)) (map at_pos (zrange a (a + Z.of_nat n))) (pos (a + Z.of_nat n)).
Proof.
  induction n as [|n IH]; intros a; [replace (a + Z.of_nat 0) with a by lia; unfold zrange; replace (Z.to_nat (a - a)) with 0%nat by lia; exact I|].
  rewrite zrange_cons by lia. cbn [map joins]. rewrite at_cell. specialize (IH (a + 1)). replace (a + 1 - 1) with a in IH by lia. replace (a + 1 + Z.of_nat n) with (a + Z.of_nat (S n)) in IH by lia. split; auto. cbn [snd].
  replace (match map at_pos (zrange (a + 1) (a + Z.of_nat (S n))) with [] => pos (a + Z.of_nat (S n)) | m' :: _ => cell_of m' end) with (pos (a + 1)); auto.
  destruct n as [|n]; [replace (a + Z.of_nat 1) with (a + 1) by lia; unfold zrange; replace (Z.to_nat (a + 1 - (a + 1))) with 0%nat by lia; auto|]. rewrite zrange_cons by lia. cbn [map]. rewrite at_cell. auto.
Qed.
Lemma join_down : forall n a, joins (pos (a + Z.of_nat n)) (map at_pos (rev (zrange a (a + Z.of_nat n)))) (pos (a - 1)).
Proof.
  induction n as [|n IH]; intros a; [replace (a + Z.of_nat 0) with a by lia; unfold zrange; replace (Z.to_nat (a - a)) with 0%nat by lia; exact I|].
  rewrite zrange_cons by lia. cbn [rev]. rewrite map_app. specialize (IH (a + 1)). destruct (run_down n (a + 1)) as [_ I2]. replace (a + 1 - 1) with a in IH by lia. replace (a + Z.of_nat (S n)) with (a + 1 + Z.of_nat n) by lia. apply joins_app. rewrite I2. cbn [map head_of joins]. rewrite at_cell. split; auto. split; auto. cbn [snd]. apply connects_sym. auto.
Qed.
Lemma join_up_to a b : a <= b -> joins (pos (a - 1)) (map at_pos (zrange a b)) (pos b).
Proof. intros H. pose proof (join_up (Z.to_nat (b - a)) a) as G. replace (a + Z.of_nat (Z.to_nat (b - a))) with b in G by lia. exact G. Qed.
Lemma join_down_to a b : a <= b -> joins (pos b) (map at_pos (rev (zrange a b))) (pos (a - 1)).
Proof. intros H. pose proof (join_down (Z.to_nat (b - a)) a) as G. replace (a + Z.of_nat (Z.to_nat (b - a))) with b in G by lia. exact G. Qed.
End Run.
Lemma next_row x i : next_to ((fun y => (y, x)) i) ((fun y => (y, x)) (i + 1)).
Proof. unfold next_to. cbn. lia. Qed.
Lemma next_column y i : next_to ((fun x => (y, x)) i) ((fun x => (y, x)) (i + 1)).
Proof. unfold next_to. cbn. lia. Qed.

Lemma row_joins x i : connects (border_v false) ((fun y => (y, x)) (i - 1)) ((fun y => (y, x)) i) ((fun y => (y, x)) (i + 1)).
Proof. unfold connects. cbn [fst snd]. replace (i - 1 - i) with (-1) by lia. replace (i + 1 - i) with 1 by lia. replace (x - x) with 0 by lia. replace (sides (border_v false)) with [(-1, 0); (1, 0)] by reflexivity. cbn [In]. intuition. injection H. lia. Qed.
Lemma column_joins y i : connects (border_h false) ((fun x => (y, x)) (i - 1)) ((fun x => (y, x)) i) ((fun x => (y, x)) (i + 1)).
Proof. unfold connects. cbn [fst snd]. replace (i - 1 - i) with (-1) by lia. replace (i + 1 - i) with 1 by lia. replace (y - y) with 0 by lia. replace (sides (border_h false)) with [(0, -1); (0, 1)] by reflexivity. cbn [In]. intuition. injection H. lia. Qed.

(** ** Marks *)
Lemma dots_app l m y x : dots (l ++ m) y x = match dots m y x with Some r => Some r | None => dots l y x end.
Proof.
  unfold dots. induction l as [|p l IH]; [cbn [List.app]; destruct (layers _ m y x); auto|]. cbn [List.app]. rewrite !layers_cons, IH. destruct (layers _ m y x); auto.
Qed.
Lemma dot_one y' x' c y x : dots [(y', x', c)] y x = if (y =? y') && (x =? x') then Some c else None.
Proof. unfold dots. rewrite layers_cons. reflexivity. Qed.
Lemma drawn_dots l y x : drawn l y x = match dots l y x with Some r => r | None => 32 end.
Proof.
  assert (G : forall l c, fold_left (fun c '((y', x', r) : mark) => if (y' =? y) && (x' =? x) then r else c) l c = match dots l y x with Some r => r | None => c end).
  { clear l. induction l as [|[[y' x'] r] l IH]; intros c; auto. cbn [fold_left]. rewrite IH. unfold dots. rewrite layers_cons. fold (dots l). destruct (dots l y x); auto. unfold dot. rewrite (Z.eqb_sym y' y), (Z.eqb_sym x' x). destruct ((y =? y') && (x =? x')); auto. }
  apply G.
Qed.
(** Lines that differ only where the arrow is. *)
Lemma same_marks pre line ya xa ca y x :
  (forall y x c c', (y, x) <> (ya, xa) -> In (y, x, c) pre -> In (y, x, c') pre -> c = c') ->
  (forall y x c, (y, x) <> (ya, xa) -> (In (y, x, c) pre <-> In (y, x, c) line)) ->
  dots (pre ++ [(ya, xa, ca)]) y x = dots (line ++ [(ya, xa, ca)]) y x.
Proof.
  intros Hf Hs. rewrite !dots_app, !dot_one. destruct ((y =? ya) && (x =? xa)) eqn:E; auto. rewrite andb_false_iff in E. assert (Hne : (y, x) <> (ya, xa)) by (intros H; injection H as -> ->; lia).
  destruct (dots pre y x) as [c|] eqn:Ep.
  - apply dots_value in Ep. symmetry. apply dots_is; [|apply Hs; auto]. intros c' Hc'. apply (Hf y x); auto. apply Hs; auto.
  - symmetry. apply dots_none. intros c Hc. apply Hs in Hc; auto. assert (He : exists c, In (y, x, c) pre) by eauto. apply dots_some in He. congruence.
Qed.

Ltac in_line H := repeat (apply in_app_iff in H; destruct H as [H|H]);
  try (apply in_map_iff in H; let j := fresh "j" in let E := fresh "E" in let Hj := fresh "Hj" in destruct H as (j & E & Hj); try (rewrite <- in_rev in Hj); apply in_zrange in Hj; injection E as <- <- <-);
  try (cbn [In] in H; destruct H as [H|[]]; injection H as <- <- <-);
  try (cbn [In] in H; destruct H; fail).

Ltac marked := split; [lia|split; [lia|reflexivity]].
(** ** The line of an arc *)
Lemma overlap_iff b1 b2 : real b1 -> real b2 ->
  ((b_x b2 <? b_x b1 + b_w b1) && (b_x b1 <? b_x b2 + b_w b2) && ((b_y b2 <? b_y b1 + b_h b1) && (b_y b1 <? b_y b2 + b_h b2)) = true <-> exists y x, inside b1 x y = true /\ inside b2 x y = true).
Proof.
  intros [W1 H1] [W2 H2]. unfold inside. split.
  - rewrite !andb_true_iff. intros ((A & B) & C & D). exists (Z.max (b_y b1) (b_y b2)), (Z.max (b_x b1) (b_x b2)). rewrite !andb_true_iff. lia.
  - intros (y & x & A & B). rewrite !andb_true_iff in *. lia.
Qed.

Definition tall (b : bounds) : Prop := 2 <= b_w b /\ 2 <= b_h b.
(** Up or along the positions [pos], with the arrow on the last cell. *)
Section Straight.
Variables (pos : Z -> Z * Z) (c ca : Z).
Hypothesis Hpos : forall i, next_to (pos i) (pos (i + 1)).
Hypothesis Hinj : forall i j, pos i = pos j -> i = j.
Notation at_pos := (fun i => (fst (pos i), snd (pos i), c)).
Lemma run_in i l y x c' : In (y, x, c') (map at_pos l) /\ (y, x) <> pos i <-> (exists j, pos j = (y, x) /\ c' = c /\ j <> i /\ In j l).
Proof.
  rewrite in_map_iff. split.
  - intros [(j & E & Hj) Hne]. injection E as E1 E2 E3. exists j. repeat split; auto; [rewrite (surjective_pairing (pos j)); congruence|]. intros ->. apply Hne. rewrite (surjective_pairing (pos i)). congruence.
  - intros (j & E & -> & Hne & Hj). split; [exists j; rewrite E; auto|]. intros H. apply Hne. apply Hinj. congruence.
Qed.
Lemma straight_up a b y x :
  dots (map at_pos (zrange a b) ++ [(fst (pos (b - 1)), snd (pos (b - 1)), ca)]) y x = dots (map at_pos (zrange a (b - 1)) ++ [(fst (pos (b - 1)), snd (pos (b - 1)), ca)]) y x.
Proof.
  apply same_marks.
  - intros y' x' c1 c2 _ A B. apply in_map_iff in A, B. destruct A as (i & A & _), B as (j & B & _). congruence.
  - intros y' x' c1 Hne. rewrite <- surjective_pairing in Hne. pose proof (run_in (b - 1) (zrange a b) y' x' c1) as R1. pose proof (run_in (b - 1) (zrange a (b - 1)) y' x' c1) as R2.
    assert (G : (exists j, pos j = (y', x') /\ c1 = c /\ j <> b - 1 /\ In j (zrange a b)) <-> (exists j, pos j = (y', x') /\ c1 = c /\ j <> b - 1 /\ In j (zrange a (b - 1)))).
    { split; intros (j & A & B & C & D); exists j; repeat split; auto; apply in_zrange in D; apply in_zrange; lia. }
    tauto.
Qed.
Lemma straight_down a b y x :
  dots (map at_pos (zrange a b) ++ [(fst (pos a), snd (pos a), ca)]) y x = dots (map at_pos (rev (zrange (a + 1) b)) ++ [(fst (pos a), snd (pos a), ca)]) y x.
Proof.
  apply same_marks.
  - intros y' x' c1 c2 _ A B. apply in_map_iff in A, B. destruct A as (i & A & _), B as (j & B & _). congruence.
  - intros y' x' c1 Hne. rewrite <- surjective_pairing in Hne. pose proof (run_in a (zrange a b) y' x' c1) as R1. pose proof (run_in a (rev (zrange (a + 1) b)) y' x' c1) as R2.
    assert (G : (exists j, pos j = (y', x') /\ c1 = c /\ j <> a /\ In j (zrange a b)) <-> (exists j, pos j = (y', x') /\ c1 = c /\ j <> a /\ In j (rev (zrange (a + 1) b)))).
    { split; intros (j & A & B & C & D); exists j; repeat split; auto; [rewrite <- in_rev; apply in_zrange in D; apply in_zrange; lia|rewrite <- in_rev in D; apply in_zrange in D; apply in_zrange; lia]. }
    tauto.
Qed.
Hypothesis Hc : forall i, connects c (pos (i - 1)) (pos i) (pos (i + 1)).
Lemma drawn_up b1 b2 a b : (forall y x, inside b1 x y = true -> inside b2 x y = false) -> a <= b ->
  (forall i, a - 2 <= i < a -> inside b1 (snd (pos i)) (fst (pos i)) = true) -> points_to b2 (fst (pos (b - 1)), snd (pos (b - 1)), ca) ->
  arc_drawn b1 b2 (map at_pos (zrange a (b - 1)) ++ [(fst (pos (b - 1)), snd (pos (b - 1)), ca)]).
Proof.
  intros Hno Hab Hst Hpt. right. split; auto. exists (pos (if a =? b then a - 2 else a - 1)), (map at_pos (zrange a (b - 1))), (fst (pos (b - 1)), snd (pos (b - 1)), ca). split; auto. split; [apply Hst; destruct (a =? b); lia|]. cut (leads (pos (if a =? b then a - 2 else a - 1)) (map at_pos (zrange a (b - 1)) ++ [(fst (pos (b - 1)), snd (pos (b - 1)), ca)]) /\ joins (pos (if a =? b then a - 2 else a - 1)) (map at_pos (zrange a (b - 1))) (cell_of (fst (pos (b - 1)), snd (pos (b - 1)), ca))); [intros [G1 G2]; auto|].
  replace (cell_of (fst (pos (b - 1)), snd (pos (b - 1)), ca)) with (pos (b - 1)) by (cbn; destruct (pos (b - 1)); auto). destruct (a =? b) eqn:E.
  - assert (a = b) by lia. subst b. replace (zrange a (a - 1)) with (@nil Z) by (unfold zrange; replace (Z.to_nat (a - 1 - a)) with 0%nat by lia; auto). cbn [map List.app leads joins]. split; [|exact I]. rewrite <- surjective_pairing. split; auto. pose proof (Hpos (a - 2)) as P. replace (a - 2 + 1) with (a - 1) in P by lia. auto.
  - destruct (run_up_to pos c Hpos a (b - 1) ltac:(lia)) as [I1 I2]. split; [|apply join_up_to; auto; lia]. apply leads_app. split; auto. rewrite I2. cbn [leads]. rewrite <- surjective_pairing. split; auto. pose proof (Hpos (b - 1 - 1)) as P. replace (b - 1 - 1 + 1) with (b - 1) in P by lia. auto.
Qed.
Lemma drawn_down b1 b2 a b : (forall y x, inside b1 x y = true -> inside b2 x y = false) -> a <= b ->
  (forall i, b <= i < b + 2 -> inside b1 (snd (pos i)) (fst (pos i)) = true) -> points_to b2 (fst (pos a), snd (pos a), ca) ->
  arc_drawn b1 b2 (map at_pos (rev (zrange (a + 1) b)) ++ [(fst (pos a), snd (pos a), ca)]).
Proof.
  intros Hno Hab Hst Hpt. right. split; auto. exists (pos (if a =? b then b + 1 else b)), (map at_pos (rev (zrange (a + 1) b))), (fst (pos a), snd (pos a), ca). split; auto. split; [apply Hst; destruct (a =? b); lia|]. cut (leads (pos (if a =? b then b + 1 else b)) (map at_pos (rev (zrange (a + 1) b)) ++ [(fst (pos a), snd (pos a), ca)]) /\ joins (pos (if a =? b then b + 1 else b)) (map at_pos (rev (zrange (a + 1) b))) (cell_of (fst (pos a), snd (pos a), ca))); [intros [G1 G2]; auto|].
  replace (cell_of (fst (pos a), snd (pos a), ca)) with (pos a) by (cbn; destruct (pos a); auto). destruct (a =? b) eqn:E.
  - assert (a = b) by lia. subst b. replace (zrange (a + 1) a) with (@nil Z) by (unfold zrange; replace (Z.to_nat (a - (a + 1))) with 0%nat by lia; auto). cbn [map List.app rev leads joins]. split; [|exact I]. rewrite <- surjective_pairing. split; auto. apply (next_sym _ _ (Hpos _)).
  - destruct (run_down_to pos c Hpos (a + 1) b ltac:(lia)) as [I1 I2]. split; [|pose proof (join_down_to pos c Hpos Hc (a + 1) b ltac:(lia)) as J; replace (a + 1 - 1) with a in J by lia; exact J]. apply leads_app. split; auto. rewrite I2. cbn [leads]. rewrite <- surjective_pairing. split; auto. apply (next_sym _ _ (Hpos _)).
Qed.
End Straight.

Lemma corner_route b1 b2 start hor yc xc cc ch cv ver ver' ya xa ca :
  (forall y x, inside b1 x y = true -> inside b2 x y = false) -> inside b1 (snd start) (fst start) = true -> leads start hor -> next_to (end_of start hor) (yc, xc) ->
  joins start hor (yc, xc) -> points_to b2 (ya, xa, ca) ->
  (forall y x c, In (y, x, c) hor -> x <> xc /\ y = yc /\ c = ch) -> (forall y x c, In (y, x, c) ver -> x = xc /\ y <> yc /\ c = cv) ->
  ((ya, xa) = (yc, xc) /\ ver = [] \/
   leads (yc, xc) (ver' ++ [(ya, xa, ca)]) /\ connects cc (end_of start hor) (yc, xc) (head_of ver' (ya, xa)) /\ joins (yc, xc) ver' (ya, xa) /\ (forall y x c, (y, x) <> (ya, xa) -> (In (y, x, c) ver <-> In (y, x, c) ver'))) ->
  exists r, arc_drawn b1 b2 r /\ forall y x, dots ((hor ++ [(yc, xc, cc)]) ++ ver ++ [(ya, xa, ca)]) y x = dots r y x.
Proof.
  intros Hno Hst Hl Hn Hh Hp Fh Fv Hcase.
  assert (Fun : forall y x c c', In (y, x, c) ((hor ++ [(yc, xc, cc)]) ++ ver) -> In (y, x, c') ((hor ++ [(yc, xc, cc)]) ++ ver) -> c = c').
  { intros y x c c' A B. rewrite !in_app_iff in A, B. cbn [In] in A, B. destruct A as [[A|[A|[]]]|A], B as [[B|[B|[]]]|B]; try (apply Fh in A); try (apply Fv in A); try (apply Fh in B); try (apply Fv in B); try (injection A as A1 A2 A3); try (injection B as B1 B2 B3); intuition congruence. }
  destruct Hcase as [[Ea ->]|(Hlv & Hc & Hv & Hin)].
  - injection Ea as -> ->. exists (hor ++ [(yc, xc, ca)]). split.
    + right. split; auto. exists start, hor, (yc, xc, ca). split; auto. split; auto. split; auto. apply leads_app. split; auto. cbn [leads]. auto.
    + intros y x. cbn [List.app]. apply same_marks; auto.
      * intros y' x' c c' _ A B. apply (Fun y' x'); rewrite List.app_nil_r; auto.
      * intros y' x' c Hne. rewrite in_app_iff. cbn [In]. split; [|auto]. intros [A|[A|[]]]; auto. injection A as -> -> ->. congruence.
  - exists (((hor ++ [(yc, xc, cc)]) ++ ver') ++ [(ya, xa, ca)]). split.
    + right. split; auto. exists start, ((hor ++ [(yc, xc, cc)]) ++ ver'), (ya, xa, ca). split; auto. split; auto. split; [|split; auto].
      * rewrite <- List.app_assoc. apply leads_app. split; [apply leads_app; split; auto; cbn [leads]; auto|]. rewrite end_app. cbn [end_of fold_left]. auto.
      * apply joins_app. rewrite end_app. cbn [end_of fold_left cell_of]. split; auto. apply joins_app. cbn [head_of joins cell_of snd]. auto.
    + intros y x. rewrite List.app_assoc. apply same_marks; [intros y' x' c c' _; apply Fun|]. intros y' x' c Hne. rewrite !in_app_iff. rewrite Hin by auto. tauto.
Qed.
Lemma head_up x a b : a <= b -> head_of (map (fun y => (y, x, border_v false)) (zrange a b)) (b, x) = (a, x).
Proof. intros H. destruct (Z.eq_dec a b) as [->|Hn]; [unfold zrange; replace (Z.to_nat (b - b)) with 0%nat by lia; auto|]. rewrite zrange_cons by lia. auto. Qed.
Lemma head_down x a b : a <= b -> head_of (map (fun y => (y, x, border_v false)) (rev (zrange a b))) (a - 1, x) = (b - 1, x).
Proof. intros H. destruct (Z.eq_dec a b) as [->|Hn]; [unfold zrange; replace (Z.to_nat (b - b)) with 0%nat by lia; auto|]. rewrite (LogicFacts.zrange_app a (b - 1) b) by lia. rewrite (zrange_cons (b - 1)) by lia. replace (zrange (b - 1 + 1) b) with (@nil Z) by (unfold zrange; replace (Z.to_nat (b - (b - 1 + 1))) with 0%nat by lia; auto). rewrite rev_app_distr. reflexivity. Qed.
Lemma corner_down b1 b2 start hor yc xc cc : (forall y x, inside b1 x y = true -> inside b2 x y = false) -> inside b1 (snd start) (fst start) = true -> leads start hor -> next_to (end_of start hor) (yc, xc) ->
  joins start hor (yc, xc) -> connects cc (end_of start hor) (yc, xc) (yc + 1, xc) -> points_to b2 (b_y b2 - 1, xc, arrow_down) -> yc + 1 <= b_y b2 ->
  (forall y x c, In (y, x, c) hor -> x <> xc /\ y = yc /\ c = border_h false) ->
  exists r, arc_drawn b1 b2 r /\ forall y x, dots ((hor ++ [(yc, xc, cc)]) ++ map (fun y => (y, xc, border_v false)) (zrange (yc + 1) (b_y b2)) ++ [(b_y b2 - 1, xc, arrow_down)]) y x = dots r y x.
Proof.
  intros Hno Hst Hl Hn Hh Hc Hp Hy Fh. apply (corner_route b1 b2 start hor yc xc cc (border_h false) (border_v false) _ (map (fun y => (y, xc, border_v false)) (zrange (yc + 1) (b_y b2 - 1)))); auto.
  - intros y x c Hin. in_line Hin. marked.
  - destruct (Z.eq_dec (yc + 1) (b_y b2)) as [E|E].
    + left. split; [f_equal; lia|]. unfold zrange. replace (Z.to_nat (b_y b2 - (yc + 1))) with 0%nat by lia. reflexivity.
    + right. split; [|split; [|split]].
      * destruct (run_up_to (fun y => (y, xc)) (border_v false) (next_row xc) (yc + 1) (b_y b2 - 1) ltac:(lia)) as [I1 I2]. cbn [fst snd] in I1, I2. replace (yc + 1 - 1) with yc in * by lia. apply leads_app. split; auto. rewrite I2. cbn [leads]. split; auto. unfold next_to. cbn [fst snd]. lia.
      * rewrite head_up by lia. auto.
      * pose proof (join_up_to (fun y => (y, xc)) (border_v false) (next_row xc) (row_joins xc) (yc + 1) (b_y b2 - 1) ltac:(lia)) as J. cbn [fst snd] in J. replace (yc + 1 - 1) with yc in J by lia. auto.
      * intros y x c Hne. rewrite !in_map_iff. split; intros (j & A & B); exists j; (split; [auto|]); apply in_zrange in B; apply in_zrange; injection A as A1 A2 A3; [|lia]. destruct (Z.eq_dec j (b_y b2 - 1)); [exfalso; apply Hne; congruence|lia].
Qed.
Lemma corner_up b1 b2 start hor yc xc cc : (forall y x, inside b1 x y = true -> inside b2 x y = false) -> inside b1 (snd start) (fst start) = true -> leads start hor -> next_to (end_of start hor) (yc, xc) ->
  joins start hor (yc, xc) -> connects cc (end_of start hor) (yc, xc) (yc - 1, xc) -> points_to b2 (b_y b2 + b_h b2, xc, arrow_up) -> b_y b2 + b_h b2 <= yc ->
  (forall y x c, In (y, x, c) hor -> x <> xc /\ y = yc /\ c = border_h false) ->
  exists r, arc_drawn b1 b2 r /\ forall y x, dots ((hor ++ [(yc, xc, cc)]) ++ map (fun y => (y, xc, border_v false)) (rev (zrange (b_y b2 + b_h b2 + 1) yc)) ++ [(b_y b2 + b_h b2, xc, arrow_up)]) y x = dots r y x.
Proof.
  intros Hno Hst Hl Hn Hh Hc Hp Hy Fh. apply (corner_route b1 b2 start hor yc xc cc (border_h false) (border_v false) _ (map (fun y => (y, xc, border_v false)) (rev (zrange (b_y b2 + b_h b2 + 1) yc)))); auto.
  - intros y x c Hin. in_line Hin. marked.
  - destruct (Z.eq_dec (b_y b2 + b_h b2) yc) as [E|E].
    + left. split; [f_equal; lia|]. unfold zrange. replace (Z.to_nat (yc - (b_y b2 + b_h b2 + 1))) with 0%nat by lia. reflexivity.
    + right. set (e := b_y b2 + b_h b2) in *. split; [|split; [|split; [|tauto]]].
      * destruct (run_down_to (fun y => (y, xc)) (border_v false) (next_row xc) (e + 1) yc ltac:(lia)) as [I1 I2]. cbn [fst snd] in I1, I2. apply leads_app. split; auto. rewrite I2. cbn [leads]. split; auto. unfold next_to. cbn [fst snd]. lia.
      * pose proof (head_down xc (e + 1) yc ltac:(lia)) as Hd. replace (e + 1 - 1) with e in Hd by lia. rewrite Hd. auto.
      * pose proof (join_down_to (fun y => (y, xc)) (border_v false) (next_row xc) (row_joins xc) (e + 1) yc ltac:(lia)) as J. cbn [fst snd] in J. replace (e + 1 - 1) with e in J by lia. auto.
Qed.
Lemma corner_joins c yc xc dx dy : In (0, dx) (sides c) -> In (dy, 0) (sides c) -> dy <> 0 -> connects c (yc, xc + dx) (yc, xc) (yc + dy, xc).
Proof. intros H1 H2 Hd. unfold connects. cbn [fst snd]. replace (yc - yc) with 0 by lia. replace (xc + dx - xc) with dx by lia. replace (yc + dy - yc) with dy by lia. replace (xc - xc) with 0 by lia. split; auto. split; auto. intros H. injection H. lia. Qed.

Theorem route_of W H b1 b2 : on_canvas W H b1 -> on_canvas W H b2 -> tall b1 -> tall b2 -> exists raw r, (forall g, render_edge b1 b2 g = puts g raw) /\ (forall y x c, In (y, x, c) raw -> 0 <= y < H /\ 0 <= x < W) /\ arc_drawn b1 b2 r /\ forall y x, dots raw y x = dots r y x.
Proof.
  intros (X1 & Y1 & RR1 & D1) (X2 & Y2 & RR2 & D2) [W1 H1] [W2 H2]. assert (R1 : real b1) by (unfold real; lia). assert (R2 : real b2) by (unfold real; lia).
  pose proof (overlap_iff b1 b2 R1 R2) as Ho. unfold render_edge. cbv zeta.
  destruct ((b_x b2 <? b_x b1 + b_w b1) && (b_x b1 <? b_x b2 + b_w b2)) eqn:Eh; destruct ((b_y b2 <? b_y b1 + b_h b1) && (b_y b1 <? b_y b2 + b_h b2)) eqn:Ev; cbn [andb] in Ho.
  1: { exists [], []. split; [reflexivity|]. split; [intros y x c []|]. split; [|reflexivity]. left. split; auto. apply Ho. auto. }
  all: assert (Hno : forall y x, inside b1 x y = true -> inside b2 x y = false) by (intros y x A; destruct (inside b2 x y) eqn:B; auto; exfalso; assert (false = true) as X by (apply Ho; eauto); discriminate X).
  all: clear Ho R1 R2.
  - rewrite andb_true_iff in Eh. rewrite andb_false_iff in Ev. destruct Eh as [Eh1 Eh2]. apply Z.ltb_lt in Eh1, Eh2. unfold edge_vertical. cbv zeta.
    set (m := Z.quot _ 2). assert (Hm : Z.max (b_x b1) (b_x b2) <= m < Z.min (b_x b1 + b_w b1) (b_x b2 + b_w b2)) by (apply zquot_between; lia). clearbody m.
    assert (Hi : forall i j, (fun y : Z => (y, m)) i = (fun y => (y, m)) j -> i = j) by (intros i j E; injection E; auto).
    destruct (b_y b1 <? b_y b2) eqn:Ed; eexists; eexists; (split; [reflexivity|]); (split; [intros y x c Hin; in_line Hin; lia|]).
    + split; [|intros y x; apply (straight_up (fun y => (y, m)) _ _ (next_row m) Hi)].
      apply (drawn_up (fun y => (y, m)) _ _ (next_row m)); cbn [fst snd]; auto; [exact (row_joins m)|lia|intros i Hii; unfold inside; rewrite !andb_true_iff; lia|]. left. split; [reflexivity|]. unfold inside. rewrite !andb_true_iff. lia.
    + split; [|intros y x; apply (straight_down (fun y => (y, m)) _ _ (next_row m) Hi)].
      apply (drawn_down (fun y => (y, m)) _ _ (next_row m)); cbn [fst snd]; auto; [exact (row_joins m)|lia|intros i Hii; unfold inside; rewrite !andb_true_iff; lia|]. right; left. split; [reflexivity|]. unfold inside. rewrite !andb_true_iff. lia.
  - rewrite andb_true_iff in Ev. rewrite andb_false_iff in Eh. destruct Ev as [Ev1 Ev2]. apply Z.ltb_lt in Ev1, Ev2. unfold edge_horizontal. cbv zeta.
    set (m := Z.quot _ 2). assert (Hm : Z.max (b_y b1) (b_y b2) <= m < Z.min (b_y b1 + b_h b1) (b_y b2 + b_h b2)) by (apply zquot_between; lia). clearbody m.
    assert (Hi : forall i j, (fun x : Z => (m, x)) i = (fun x => (m, x)) j -> i = j) by (intros i j E; injection E; auto).
    destruct (b_x b1 <? b_x b2) eqn:Ed; eexists; eexists; (split; [reflexivity|]); (split; [intros y x c Hin; in_line Hin; lia|]).
    + split; [|intros y x; apply (straight_up (fun x => (m, x)) _ _ (next_column m) Hi)].
      apply (drawn_up (fun x => (m, x)) _ _ (next_column m)); cbn [fst snd]; auto; [exact (column_joins m)|lia|intros i Hii; unfold inside; rewrite !andb_true_iff; lia|]. right; right; left. split; [reflexivity|]. unfold inside. rewrite !andb_true_iff. lia.
    + split; [|intros y x; apply (straight_down (fun x => (m, x)) _ _ (next_column m) Hi)].
      apply (drawn_down (fun x => (m, x)) _ _ (next_column m)); cbn [fst snd]; auto; [exact (column_joins m)|lia|intros i Hii; unfold inside; rewrite !andb_true_iff; lia|]. right; right; right. split; [reflexivity|]. unfold inside. rewrite !andb_true_iff. lia.
  - rewrite andb_false_iff in Eh, Ev. unfold edge_corner. cbv zeta.
    assert (Hr : forall yc, b_x b1 < b_x b2 -> leads (yc, b_x b1 + b_w b1 - 1) (map (fun x => (yc, x, border_h false)) (zrange (b_x b1 + b_w b1) (b_x b2))) /\ end_of (yc, b_x b1 + b_w b1 - 1) (map (fun x => (yc, x, border_h false)) (zrange (b_x b1 + b_w b1) (b_x b2))) = (yc, b_x b2 - 1)) by (intros yc Hlt; apply (run_up_to (fun x => (yc, x)) (border_h false) (next_column yc)); lia).
    assert (Jr : forall yc, b_x b1 < b_x b2 -> joins (yc, b_x b1 + b_w b1 - 1) (map (fun x => (yc, x, border_h false)) (zrange (b_x b1 + b_w b1) (b_x b2))) (yc, b_x b2)) by (intros yc Hlt; apply (join_up_to (fun x => (yc, x)) (border_h false) (next_column yc) (column_joins yc)); lia).
    assert (Hl : forall yc, b_x b2 <= b_x b1 -> leads (yc, b_x b1) (map (fun x => (yc, x, border_h false)) (rev (zrange (b_x b2 + b_w b2) (b_x b1)))) /\ end_of (yc, b_x b1) (map (fun x => (yc, x, border_h false)) (rev (zrange (b_x b2 + b_w b2) (b_x b1)))) = (yc, b_x b2 + b_w b2)) by (intros yc Hlt; apply (run_down_to (fun x => (yc, x)) (border_h false) (next_column yc)); lia).
    assert (Jl : forall yc, b_x b2 <= b_x b1 -> joins (yc, b_x b1) (map (fun x => (yc, x, border_h false)) (rev (zrange (b_x b2 + b_w b2) (b_x b1)))) (yc, b_x b2 + b_w b2 - 1)) by (intros yc Hlt; apply (join_down_to (fun x => (yc, x)) (border_h false) (next_column yc) (column_joins yc)); lia).
    destruct (b_y b1 <? b_y b2) eqn:Ed, (b_x b1 <? b_x b2) eqn:Er; apply Z.ltb_lt in Ed || apply Z.ltb_ge in Ed; apply Z.ltb_lt in Er || apply Z.ltb_ge in Er; match goal with |- exists raw r, (forall g, puts g ?l = _) /\ _ => exists l end.
    all: match goal with |- exists r, (forall g, puts g ?l = _) /\ _ => enough (G : exists r, arc_drawn b1 b2 r /\ forall y x, dots l y x = dots r y x) by (destruct G as (r & G1 & G2); exists r; split; [reflexivity|]; split; [intros y x c Hin; in_line Hin; lia|]; auto) end.
    + destruct (Hr (b_y b1 + b_h b1 - 1) Er) as [I1 I2]. eapply corner_down; [auto| |exact I1|rewrite I2; unfold next_to; cbn [fst snd]; lia|exact (Jr _ Er)| | |lia|intros y x c Hin; in_line Hin; marked]; [unfold inside; cbn [fst snd]; rewrite !andb_true_iff; lia|rewrite I2; apply (corner_joins _ _ _ (-1) 1); [vm_compute; tauto|vm_compute; tauto|lia]|left; split; [reflexivity|]; unfold inside; rewrite !andb_true_iff; lia].
    + destruct (Hl (b_y b1 + b_h b1 - 1) Er) as [I1 I2]. eapply corner_down; [auto| |exact I1|rewrite I2; unfold next_to; cbn [fst snd]; lia|exact (Jl _ Er)| | |lia|intros y x c Hin; in_line Hin; marked]; [unfold inside; cbn [fst snd]; rewrite !andb_true_iff; lia|rewrite I2; replace (b_x b2 + b_w b2) with (b_x b2 + b_w b2 - 1 + 1) at 1 by lia; apply (corner_joins _ _ _ 1 1); [vm_compute; tauto|vm_compute; tauto|lia]|left; split; [reflexivity|]; unfold inside; rewrite !andb_true_iff; lia].
    + destruct (Hr (b_y b1) Er) as [I1 I2]. eapply corner_up; [auto| |exact I1|rewrite I2; unfold next_to; cbn [fst snd]; lia|exact (Jr _ Er)| | |lia|intros y x c Hin; in_line Hin; marked]; [unfold inside; cbn [fst snd]; rewrite !andb_true_iff; lia|rewrite I2; apply (corner_joins _ _ _ (-1) (-1)); [vm_compute; tauto|vm_compute; tauto|lia]|right; left; split; [reflexivity|]; unfold inside; rewrite !andb_true_iff; lia].
    + destruct (Hl (b_y b1) Er) as [I1 I2]. eapply corner_up; [auto| |exact I1|rewrite I2; unfold next_to; cbn [fst snd]; lia|exact (Jl _ Er)| | |lia|intros y x c Hin; in_line Hin; marked]; [unfold inside; cbn [fst snd]; rewrite !andb_true_iff; lia|rewrite I2; replace (b_x b2 + b_w b2) with (b_x b2 + b_w b2 - 1 + 1) at 1 by lia; apply (corner_joins _ _ _ 1 (-1)); [vm_compute; tauto|vm_compute; tauto|lia]|right; left; split; [reflexivity|]; unfold inside; rewrite !andb_true_iff; lia].
Qed.

(** ** All arcs *)
Notation spec_arc := (fun '((b1, b2) : bounds * bounds) r => arc_drawn b1 b2 r).
Definition box_in (nodes : list tnode) (x : string) : bounds :=
  match find (fun t => String.eqb (t_name t) x) nodes with Some t => t_bounds t | None => mkBounds 0 0 0 0 end.
Definition node_arcs (nodes : list tnode) (t : tnode) : list (bounds * bounds) :=
  match t_factor t with Some f => map (fun g => (box_in nodes g, t_bounds t)) (nf_given f) | None => [] end.
Lemma node_tall t : node_ok t -> tall (t_bounds t).
Proof. intros Hn. destruct (node_sizes t Hn) as (? & ? & _). split; lia. Qed.
Lemma paints_dots_app W H F1 F2 l m : paints W H F1 (dots l) -> paints W H F2 (dots m) -> paints W H (fun g => let! g := F1 g in F2 g) (dots (l ++ m)).
Proof. intros P1 P2. eapply paints_ext; [reflexivity| |exact (paints_seq W H _ _ _ _ P1 P2)]. intros y x _ _. rewrite dots_app. reflexivity. Qed.
Section Arcs.
Variables (W H : Z) (nodes : list tnode).
Hypothesis Hok : nodes_ok W H nodes.
Hypothesis Hnd : NoDup (map t_name nodes).
Hypothesis Hpar : forall t f g, In t nodes -> t_factor t = Some f -> In g (nf_given f) -> exists u, In u nodes /\ t_name u = g.
Lemma box_found u : In u nodes -> box_in nodes (t_name u) = t_bounds u.
Proof.
  intros Hu. unfold box_in. destruct (find _ nodes) as [w|] eqn:E.
  - apply find_some in E. destruct E as [Hw En]. apply String.eqb_eq in En. apply In_nth_error in Hw, Hu. destruct Hw as [i Hi], Hu as [j Hj]. pose proof (TuiTable.by_name_get nodes Hnd i w Hi) as A. pose proof (TuiTable.by_name_get nodes Hnd j u Hj) as B. congruence.
  - exfalso. apply (find_none _ _ E u) in Hu. rewrite String.eqb_refl in Hu. discriminate.
Qed.
Lemma edges_drawn : exists routes, Forall2 spec_arc (flat_map (node_arcs nodes) nodes) routes /\ paints W H (render_edges nodes) (dots (List.concat routes)).
Proof.
  unfold render_edges.
  set (F := fun (g : grid) (t : tnode) => match t_factor t with None => Panic PNil | Some f => foldM (fun g p => let! n1 := sget nodes (nodes_by_name nodes p) in render_edge (t_bounds n1) (t_bounds t) g) g (nf_given f) end).
  assert (G : forall l, incl l nodes -> exists routes, Forall2 spec_arc (flat_map (node_arcs nodes) l) routes /\ paints W H (fun g => foldM F g l) (dots (List.concat routes))).
  { induction l as [|t l IH]; intros Hi; cbn [foldM flat_map]; [exists []; split; [constructor|apply paints_none]|].
    destruct IH as (r2 & F2 & P2); [intros u Hu; apply Hi; right; auto|].
    assert (Ht : In t nodes) by (apply Hi; left; auto).
    assert (P1 : exists r1, Forall2 spec_arc (node_arcs nodes t) r1 /\ paints W H (fun g => F g t) (dots (List.concat r1))).
    { destruct (Hok t Ht) as (Hn & Hc & Hf). unfold F, node_arcs. specialize (fun f => Hpar t f) as Hp. destruct (t_factor t) as [f|]; [|congruence]. specialize (fun g => Hp f g Ht eq_refl) as Hg. clear Hp Hf.
      induction (nf_given f) as [|p ps IHp]; cbn [foldM map]; [exists []; split; [constructor|apply paints_none]|]. destruct IHp as (r3 & F3 & P3); [intros g Hg'; apply Hg; right; auto|].
      destruct (Hg p (or_introl eq_refl)) as (u & Hu & <-). destruct (In_nth_error _ _ Hu) as [k Hk]. pose proof (TuiTable.by_name_get nodes Hnd k u Hk) as Eu.
      destruct (Hok u Hu) as (Hn1 & Hc1 & _). destruct (route_of W H _ _ Hc1 Hc (node_tall _ Hn1) (node_tall _ Hn)) as (raw & r & Er & Hr & Hd & Es).
      exists (r :: r3). split; [constructor; auto; rewrite (box_found u Hu); auto|]. cbn [List.concat].
      eapply paints_ext with (F := fun g => let! g := puts g raw in foldM (fun g p => let! n1 := sget nodes (nodes_by_name nodes p) in render_edge (t_bounds n1) (t_bounds t) g) g ps); [intros g; rewrite Eu; cbn [gbind]; rewrite Er; reflexivity| |exact (paints_dots_app W H _ _ raw _ (paints_puts W H raw Hr) P3)].
      intros y x _ _. rewrite !dots_app, Es. reflexivity. }
    destruct P1 as (r1 & F1 & P1). exists (r1 ++ r2). split; [apply Forall2_app; auto|]. rewrite concat_app. apply paints_dots_app; auto. }
  destruct (G nodes (fun t Ht => Ht)) as (routes & F1 & P1). eauto.
Qed.
End Arcs.

Section Reached.
Variables (n : network xnum) (ev : list (string * string)).
Hypothesis Hso : solvable n.
Hypothesis Hsw : showable n.
Hypothesis Hev : valid_observations n ev.
Variable other_digit : Z -> bool.
Variable scp : sched.
Theorem arcs_shown a : reached other_digit scp n ev a -> exists n' tables routes W H, net_solve_policies scp n true = (n', Ok tables) /\ shaped W H (a_canvas a) /\
  Forall2 spec_arc (arcs n tables a) routes /\
  forall y x, 0 <= y < H -> 0 <= x < W -> (forall t, In t (a_nodes a) -> inside (t_bounds t) x y = false) -> px (a_canvas a) y x = Ok (drawn (List.concat routes) y x).
Proof.
  intros Hr. destruct (reached_ok n ev Hso Hsw Hev other_digit scp a Hr) as (n' & tables & [R1 R2 R3 R4 R5 R6 R7 R8]). destruct (ao_screen _ _ R6) as (W & H & HW & HH & [O1 O2 O3 O4 O5 O6 O7]).
  pose proof (names_nodup n' R3 a (ao_core _ _ R6)) as Hnd.
  destruct (edges_drawn W H (a_nodes a) O1 Hnd) as (routes & F & P).
  { intros t f g Ht Hf Hg. pose proof (co_nodes _ _ (ao_core _ _ R6)) as FN. apply In_nth_error in Ht. destruct Ht as [i Hi]. destruct (nth_error (n_vars n') i) as [v|] eqn:Ev; [|apply nth_error_None in Ev; apply Forall2_len in FN; assert (i < List.length (a_nodes a))%nat by (apply nth_error_Some; congruence); lia].
    destruct (nd_factor _ _ _ (Forall2_nth _ _ _ FN i _ _ Ev Hi)) as (f' & Ef & _ & Hk & _). assert (f' = f) by congruence. subst f'. destruct (Hk g Hg) as (w & Hw). rewrite (sr_vars _ _ _ R2), <- R7 in Hw. destruct (node_named (a_nodes a) g w Hw) as (k & u & Hu & _ & En). exists u. split; auto. eapply nth_error_In; eauto. }
  exists n', tables, routes, W, H. split; auto. split; auto. split.
  - assert (G : forall vs ts, Forall2 (fun v t => t_factor t = match sget_map tables (nv_name v) with Some p => Some p | None => own_factor n v end) vs ts -> map t_var ts = vs -> incl ts (a_nodes a) ->
      flat_map (node_arcs (a_nodes a)) ts = flat_map (fun v => match table_of n tables v with Some f => map (fun g => (box_named a g, box_named a (nv_name v))) (nf_given f) | None => [] end) vs).
    { clear - Hnd. intros vs ts Ff. induction Ff as [|v t vs ts Hvt Ff IH]; intros Ev Hin; auto. cbn [map] in Ev. injection Ev as E1 E2. cbn [flat_map]. rewrite IH by (auto; intros u Hu; apply Hin; right; auto). f_equal.
      unfold node_arcs, table_of. change (box_named a) with (box_in (a_nodes a)). rewrite Hvt. change (own_factor n v) with (match nv_factor v with Some k => nth_error (n_factors n) k | None => None end). rewrite <- E1. change (nv_name (t_var t)) with (t_name t). rewrite (box_found _ Hnd t (Hin t (or_introl eq_refl))). destruct (sget_map tables (t_name t)); auto. }
    unfold arcs. rewrite <- (G _ _ R8 R7 (fun u Hu => Hu)). auto.
  - intros y x Hy Hx Hno. destruct O5 as (bg & Eb & Hb & Pb). transitivity (px bg y x); [apply Pb; auto|].
    + destruct (layers picture (a_nodes a) y x) as [r|] eqn:E; auto. exfalso. assert (En : layers picture (a_nodes a) y x <> None) by congruence. apply layers_some in En. destruct En as (t & Ht & Hv). apply Hv. unfold picture, image. change b_contains with inside. rewrite (Hno t Ht). auto.
    + destruct (P (clear_grid sym_empty (a_canvas a))) as (g & Eg & Hg & Pg); [apply clear_shaped; auto|]. assert (g = bg) by congruence. subst g. rewrite Pg by auto. rewrite drawn_dots. destruct (dots (List.concat routes) y x); auto.
      apply (clear_cell W H); auto.
Qed.
End Reached.
