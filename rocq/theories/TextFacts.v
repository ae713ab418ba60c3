(** Facts about the text functions. *)
From Coq Require Import ZArith List Bool String Ascii Lia.
From Verif Require Import Num GoBase GoFacts VarModel NetModel SpecNet LogicModel TextModel DocModel SpecDoc.
Import ListNotations.
Open Scope string_scope.
Open Scope list_scope.
Open Scope Z_scope.

Lemma split_by_nonempty p s : split_by p s <> [].
Proof. destruct s; simpl; [discriminate|]. destruct (p a); [discriminate|]. destruct (split_by p s); discriminate. Qed.

Lemma concat_cons_char sep c w ws : String.concat sep (String c w :: ws) = String c (String.concat sep (w :: ws)).
Proof. destruct ws; reflexivity. Qed.

Lemma split_parts sep s : parts_of sep s (split sep s).
Proof.
  unfold split, parts_of. split; [apply split_by_nonempty|]. induction s as [|c s [IH1 IH2]]; [split; simpl; auto; intros w [<-|[]]; simpl; auto|].
  cbn [split_by]. destruct (Ascii.eqb_spec sep c) as [->|Hne].
  - split.
    + intros w [<-|H]; simpl; auto.
    + pose proof (split_by_nonempty (Ascii.eqb c) s) as H. destruct (split_by (Ascii.eqb c) s); [tauto|]. cbn [String.concat] in *. rewrite <- IH2. reflexivity.
  - pose proof (split_by_nonempty (Ascii.eqb sep) s) as H. destruct (split_by (Ascii.eqb sep) s) as [|w ws]; [tauto|]. split.
    + intros w' [<-|H']; [|apply IH1; simpl; auto]. simpl. intros [E|E]; [congruence|]. apply (IH1 w); simpl; auto.
    + rewrite concat_cons_char, IH2. reflexivity.
Qed.

Lemma split_app sep w s : ~ In sep (chars w) -> split sep (w ++ String sep s) = w :: split sep s.
Proof.
  unfold split. induction w as [|c w IH]; intros H; simpl.
  - rewrite Ascii.eqb_refl. auto.
  - simpl in H. destruct (Ascii.eqb_spec sep c); [subst; tauto|]. rewrite IH by tauto. auto.
Qed.
Lemma split_none sep w : ~ In sep (chars w) -> split sep w = [w].
Proof.
  unfold split. induction w as [|c w IH]; intros H; simpl; auto. simpl in H. destruct (Ascii.eqb_spec sep c); [subst; tauto|]. rewrite IH by tauto. auto.
Qed.
Lemma parts_unique sep s parts : parts_of sep s parts -> parts = split sep s.
Proof.
  intros (H1 & H2 & H3). revert s H1 H3. induction parts as [|w ws IH]; intros s H1 H3; [tauto|]. destruct ws as [|w' ws].
  - simpl in H3. subst s. symmetry. apply split_none. apply H2; simpl; auto.
  - cbn [String.concat] in H3. assert (E : s = (w ++ String sep (String.concat (String sep "") (w' :: ws)))%string). { rewrite <- H3. reflexivity. }
    rewrite E, split_app by (apply H2; simpl; auto). f_equal. apply IH; [intros x Hx; apply H2; simpl; auto|discriminate|reflexivity].
Qed.

Lemma chars_text l : chars (text l) = l.
Proof. apply list_ascii_of_string_of_list_ascii. Qed.
Lemma text_chars s : text (chars s) = s.
Proof. apply string_of_list_ascii_of_string. Qed.

Lemma nat_of_digit d : (d < 10)%nat -> nat_of_ascii (digit_char d) = (48 + d)%nat.
Proof. intros H. unfold digit_char. apply nat_ascii_embedding. lia. Qed.
Lemma digit_of_char d : (d < 10)%nat -> digit_of (digit_char d) = Some (Z.of_nat d).
Proof. intros H. unfold digit_of. rewrite nat_of_digit by auto. replace ((48 <=? 48 + d) && (48 + d <=? 57))%nat with true. - f_equal. lia. - symmetry. apply andb_true_iff. split; apply Nat.leb_le; lia. Qed.
Lemma digit_of_some c z : digit_of c = Some z -> exists d, (d < 10)%nat /\ c = digit_char d /\ z = Z.of_nat d.
Proof.
  unfold digit_of. destruct (_ && _)%nat eqn:E; [|discriminate]. intros H. injection H as <-. apply andb_true_iff in E. destruct E as [E1 E2]. apply Nat.leb_le in E1, E2.
  exists (nat_of_ascii c - 48)%nat. split; [lia|]. split; [|lia]. unfold digit_char. replace (48 + (nat_of_ascii c - 48))%nat with (nat_of_ascii c) by lia. symmetry. apply ascii_nat_embedding.
Qed.
Lemma digits_spec s acc z : digits s acc = Some z <-> exists ds, (forall d, In d ds -> (d < 10)%nat) /\ s = text (map digit_char ds) /\ z = fold_left (fun z d => z * 10 + Z.of_nat d) ds acc.
Proof.
  revert acc. induction s as [|c s IH]; intros acc; simpl.
  - split.
    + intros H. injection H as <-. exists []. simpl. intuition.
    + intros ([|d ds] & _ & E & ->); [auto|discriminate].
  - split.
    + destruct (digit_of c) as [v|] eqn:E; [|discriminate]. intros H. apply IH in H. destruct H as (ds & H1 & -> & ->). apply digit_of_some in E. destruct E as (d & Hd & -> & ->).
      exists (d :: ds). split; [intros x [<-|Hx]; auto|]. split; auto.
    + intros ([|d ds] & H1 & E & ->); [discriminate|]. simpl in E. injection E as -> ->. rewrite digit_of_char by (apply H1; simpl; auto). apply IH. exists ds. split; [intros x Hx; apply H1; simpl; auto|]. auto.
Qed.

Lemma digit_not_sign d : (d < 10)%nat -> digit_char d <> "-"%char /\ digit_char d <> "+"%char.
Proof. intros H. split; intros E; apply (f_equal nat_of_ascii) in E; rewrite nat_of_digit in E by auto; [change (nat_of_ascii "-") with 45%nat in E|change (nat_of_ascii "+") with 43%nat in E]; lia. Qed.
Lemma text_cons c l : text (c :: l) = String c (text l).
Proof. reflexivity. Qed.

Lemma atoi_ok s z : atoi s = Ok z <-> number_text s z.
Proof.
  unfold atoi, number_text. split.
  - destruct s as [|c r]; [discriminate|]. destruct (Ascii.eqb_spec c "-") as [->|H1]; [|destruct (Ascii.eqb_spec c "+") as [->|H2]].
    + destruct r as [|c r]; [discriminate|]. destruct (digits (String c r) 0) as [v|] eqn:E; [|discriminate]. apply digits_spec in E. destruct E as (ds & Hd & Es & ->). rewrite Es in *.
      unfold in_int64. destruct (_ && _) eqn:E; [|discriminate]. intros H. injection H as <-. exists "-", ds. split; auto. split; [intros ->; discriminate|]. split; auto. split; auto. split; auto. unfold digits_value in *. cbn [String.eqb Ascii.eqb Bool.eqb] in *. lia.
    + destruct r as [|c r]; [discriminate|]. destruct (digits (String c r) 0) as [v|] eqn:E; [|discriminate]. apply digits_spec in E. destruct E as (ds & Hd & Es & ->). rewrite Es in *.
      unfold in_int64. destruct (_ && _) eqn:E; [|discriminate]. intros H. injection H as <-. exists "+", ds. split; auto. split; [intros ->; discriminate|]. split; auto. split; auto. split; auto. unfold digits_value in *. cbn [String.eqb Ascii.eqb Bool.eqb] in *. lia.
    + destruct (digits (String c r) 0) as [v|] eqn:E; [|discriminate]. apply digits_spec in E. destruct E as (ds & Hd & Es & ->). rewrite Es in *.
      unfold in_int64. destruct (_ && _) eqn:E; [|discriminate]. intros H. injection H as <-. exists "", ds. split; auto. split; [intros ->; discriminate|]. split; auto. split; auto. split; auto. unfold digits_value in *. cbn [String.eqb Ascii.eqb Bool.eqb] in *. lia.
  - intros (sign & ds & Hs & Hne & Hd & -> & -> & Hr). destruct ds as [|d ds]; [tauto|]. pose proof (Hd d (or_introl eq_refl)) as Hd0. destruct (digit_not_sign d Hd0) as [N1 N2].
    assert (E : digits (text (map digit_char (d :: ds))) 0 = Some (digits_value (d :: ds))) by (apply digits_spec; exists (d :: ds); auto).
    cbn [map] in *. rewrite text_cons in *.
    destruct Hs as [->|[->| ->]]; cbn [append] in *.
    + change (String.eqb "" "-") with false in *. destruct (Ascii.eqb_spec (digit_char d) "-"); [tauto|]. destruct (Ascii.eqb_spec (digit_char d) "+"); [tauto|]. rewrite E. unfold in_int64. destruct (_ && _) eqn:F; auto. lia.
    + change (String.eqb "+" "-") with false in *. change (Ascii.eqb "+" "-") with false. change (Ascii.eqb "+" "+") with true. cbv iota in *. rewrite E. unfold in_int64. destruct (_ && _) eqn:F; auto. lia.
    + change (String.eqb "-" "-") with true in *. change (Ascii.eqb "-" "-") with true. cbv iota in *. rewrite E. unfold in_int64. destruct (_ && _) eqn:F; auto. lia.
Qed.
Lemma atoi_not_panic s p : atoi s <> Panic p.
Proof. unfold atoi. destruct (match s with | EmptyString => _ | _ => _ end) as [neg body]. destruct body; [discriminate|]. destruct (digits _ _); [|discriminate]. destruct (in_int64 _); discriminate. Qed.
Lemma atoi_err s : (exists e, atoi s = Err e) <-> forall z, ~ number_text s z.
Proof.
  split.
  - intros (e & E) z H. apply atoi_ok in H. congruence.
  - intros H. destruct (atoi s) as [z|e|p] eqn:E; [exfalso; apply (H z), atoi_ok; auto|eauto|exfalso; eapply atoi_not_panic; eauto].
Qed.

Lemma mapM_numbers ws : (exists args, mapM atoi ws = Ok args /\ Forall2 number_text ws args) \/ (exists e a, mapM atoi ws = Err e /\ In a ws /\ forall z, ~ number_text a z).
Proof.
  induction ws as [|w ws IH]; simpl; [left; exists []; auto|]. destruct (atoi w) as [z|e|p] eqn:E.
  - cbn [gbind]. apply atoi_ok in E. destruct IH as [(args & -> & H)|(e & a & -> & Ha & H)].
    + left. exists (z :: args). cbn [gbind]. auto.
    + right. exists e, a. cbn [gbind]. auto.
  - right. cbn [gbind]. exists e, w. split; auto. split; auto. apply atoi_err. eauto.
  - exfalso. eapply atoi_not_panic; eauto.
Qed.
Lemma numbers_unique ws args args' : Forall2 number_text ws args -> Forall2 number_text ws args' -> args = args'.
Proof. intros H. revert args'. induction H as [|w z ws zs H1 H2 IH]; intros args' H'; inversion H'; subst; auto. f_equal; auto. apply atoi_ok in H1. match goal with H : number_text w _ |- _ => apply atoi_ok in H end. congruence. Qed.
