(** The decoder of UTF-8 agrees with its specification. *)
From Coq Require Import ZArith List Bool Lia ZifyBool Arith.Wf_nat.
From Coq Require String Ascii.
From Verif Require Import TuiModel SpecUtf8.
Import ListNotations.
Open Scope list_scope.
Open Scope Z_scope.

Ltac bits := Z.div_mod_to_equations; lia.

Lemma cons_eq {X} (x y : X) l m : x :: l = y :: m -> x = y /\ l = m.
Proof. intros H. split; congruence. Qed.

Lemma mod64 c : 0 <= c mod 64 <= 63.
Proof. bits. Qed.

Lemma decode_char c bytes : character c -> decode (encode c ++ bytes) = c :: decode bytes.
Proof.
  intros [Hc Hs]. unfold encode.
  destruct (Z.ltb_spec c 128) as [H1|H1].
  { cbn [List.app decode]. replace (c <? 128) with true by lia. auto. }
  destruct (Z.ltb_spec c 2048) as [H2|H2].
  { cbn [List.app decode]. replace (192 + c / 64 <? 128) with false by bits.
    replace (valid2 (192 + c / 64) (128 + c mod 64)) with true by (unfold valid2, cont; bits).
    f_equal. bits. }
  destruct (Z.ltb_spec c 65536) as [H3|H3].
  { cbn [List.app decode]. pose proof (mod64 c). pose proof (mod64 (c / 64)).
    assert (Hb : 0 <= c / 4096 <= 15) by bits.
    assert (He : c = c / 4096 * 4096 + (c / 64 mod 64) * 64 + c mod 64) by bits.
    replace (224 + c / 4096 <? 128) with false by lia.
    replace (valid2 (224 + c / 4096) (128 + c / 64 mod 64)) with false by (unfold valid2, cont; lia).
    replace (valid3 (224 + c / 4096) (128 + c / 64 mod 64) (128 + c mod 64)) with true by (unfold valid3, cont; lia).
    f_equal. lia. }
  cbn [List.app decode]. pose proof (mod64 c). pose proof (mod64 (c / 64)). pose proof (mod64 (c / 4096)).
  assert (Hb : 0 <= c / 262144 <= 4) by bits.
  assert (He : c = c / 262144 * 262144 + (c / 4096 mod 64) * 4096 + (c / 64 mod 64) * 64 + c mod 64) by bits.
  set (x := c / 262144) in *. set (y := c / 4096 mod 64) in *. set (z := c / 64 mod 64) in *. set (w := c mod 64) in *.
  replace (240 + x <? 128) with false by lia.
  replace (valid2 (240 + x) (128 + y)) with false by (unfold valid2, cont; lia).
  replace (valid3 (240 + x) (128 + y) (128 + z)) with false by (unfold valid3, cont; lia).
  replace (valid4 (240 + x) (128 + y) (128 + z) (128 + w)) with true by (unfold valid4, cont; lia).
  f_equal. lia.
Qed.

Lemma decode_text cs : Forall character cs -> decode (flat_map encode cs) = cs.
Proof. induction 1; cbn [flat_map]; auto. rewrite decode_char by auto. f_equal. auto. Qed.

(** Each accepted sequence encodes a character. *)
Lemma one_byte b : 0 <= b < 128 -> character b /\ encode b = [b].
Proof. intros H. split; [unfold character; lia|]. unfold encode. replace (b <? 128) with true by lia. auto. Qed.

Lemma two_bytes b0 b1 : valid2 b0 b1 = true ->
  let c := (b0 - 192) * 64 + (b1 - 128) in character c /\ encode c = [b0; b1].
Proof.
  intros H c. unfold valid2, cont in H. assert (H0 : 194 <= b0 <= 223) by lia. assert (H1 : 128 <= b1 <= 191) by lia.
  assert (Hd : c / 64 = b0 - 192) by (symmetry; apply (Z.div_unique _ _ _ (b1 - 128)); unfold c; lia).
  assert (Hm : c mod 64 = b1 - 128) by (symmetry; apply (Z.mod_unique _ _ (b0 - 192)); unfold c; lia).
  assert (Hc : c = (b0 - 192) * 64 + (b1 - 128)) by auto. clearbody c.
  split; [unfold character; lia|]. unfold encode.
  replace (c <? 128) with false by lia. replace (c <? 2048) with true by lia. rewrite Hd, Hm. f_equal; [lia|f_equal; lia].
Qed.

Lemma three_bytes b0 b1 b2 : valid3 b0 b1 b2 = true ->
  let c := (b0 - 224) * 4096 + (b1 - 128) * 64 + (b2 - 128) in character c /\ encode c = [b0; b1; b2].
Proof.
  intros H c. unfold valid3, cont in H. assert (H0 : 224 <= b0 <= 239) by lia. assert (H1 : 128 <= b1 <= 191) by lia.
  assert (H2 : 128 <= b2 <= 191) by lia. assert (H3 : b0 = 224 -> 160 <= b1) by lia. assert (H4 : b0 = 237 -> b1 <= 159) by lia.
  assert (Hd : c / 64 = (b0 - 224) * 64 + (b1 - 128)) by (symmetry; apply (Z.div_unique _ _ _ (b2 - 128)); unfold c; lia).
  assert (Hm : c mod 64 = b2 - 128) by (symmetry; apply (Z.mod_unique _ _ ((b0 - 224) * 64 + (b1 - 128))); unfold c; lia).
  assert (Hd2 : c / 4096 = b0 - 224) by (symmetry; apply (Z.div_unique _ _ _ ((b1 - 128) * 64 + (b2 - 128))); unfold c; lia).
  assert (Hm2 : c / 64 mod 64 = b1 - 128) by (rewrite Hd; symmetry; apply (Z.mod_unique _ _ (b0 - 224)); lia).
  assert (Hc : c = (b0 - 224) * 4096 + (b1 - 128) * 64 + (b2 - 128)) by auto. clearbody c.
  split; [unfold character; lia|]. unfold encode.
  replace (c <? 128) with false by lia. replace (c <? 2048) with false by lia. replace (c <? 65536) with true by lia.
  rewrite Hd2, Hm2, Hm. f_equal; [lia|f_equal; [lia|f_equal; lia]].
Qed.

Lemma four_bytes b0 b1 b2 b3 : valid4 b0 b1 b2 b3 = true ->
  let c := (b0 - 240) * 262144 + (b1 - 128) * 4096 + (b2 - 128) * 64 + (b3 - 128) in
  character c /\ encode c = [b0; b1; b2; b3].
Proof.
  intros H c. unfold valid4, cont in H. assert (H0 : 240 <= b0 <= 244) by lia. assert (H1 : 128 <= b1 <= 191) by lia.
  assert (H2 : 128 <= b2 <= 191) by lia. assert (H2' : 128 <= b3 <= 191) by lia.
  assert (H3 : b0 = 240 -> 144 <= b1) by lia. assert (H4 : b0 = 244 -> b1 <= 143) by lia.
  assert (Hd : c / 64 = (b0 - 240) * 4096 + (b1 - 128) * 64 + (b2 - 128)) by (symmetry; apply (Z.div_unique _ _ _ (b3 - 128)); unfold c; lia).
  assert (Hm : c mod 64 = b3 - 128) by (symmetry; apply (Z.mod_unique _ _ ((b0 - 240) * 4096 + (b1 - 128) * 64 + (b2 - 128))); unfold c; lia).
  assert (Hd2 : c / 4096 = (b0 - 240) * 64 + (b1 - 128)) by (symmetry; apply (Z.div_unique _ _ _ ((b2 - 128) * 64 + (b3 - 128))); unfold c; lia).
  assert (Hd3 : c / 262144 = b0 - 240) by (symmetry; apply (Z.div_unique _ _ _ ((b1 - 128) * 4096 + (b2 - 128) * 64 + (b3 - 128))); unfold c; lia).
  assert (Hm2 : c / 64 mod 64 = b2 - 128) by (rewrite Hd; symmetry; apply (Z.mod_unique _ _ ((b0 - 240) * 64 + (b1 - 128))); lia).
  assert (Hm3 : c / 4096 mod 64 = b1 - 128) by (rewrite Hd2; symmetry; apply (Z.mod_unique _ _ (b0 - 240)); lia).
  assert (Hc : c = (b0 - 240) * 262144 + (b1 - 128) * 4096 + (b2 - 128) * 64 + (b3 - 128)) by auto. clearbody c.
  split; [unfold character; lia|]. unfold encode.
  replace (c <? 128) with false by lia. replace (c <? 2048) with false by lia. replace (c <? 65536) with false by lia.
  rewrite Hd3, Hm3, Hm2, Hm. f_equal; [lia|f_equal; [lia|f_equal; [lia|f_equal; lia]]].
Qed.

Ltac read4 l := destruct l as [|?b1 [|?b2 [|?b3 ?r]]].

(** The first step of the decoder: it reads one character, or one byte that begins none. *)
Lemma decode_step b0 r : byte b0 ->
  (exists c rest, character c /\ b0 :: r = encode c ++ rest /\ decode (b0 :: r) = c :: decode rest) \/
  decode (b0 :: r) = 65533 :: decode r.
Proof.
  intros Hb. cbn [decode]. destruct (b0 <? 128) eqn:E0.
  { destruct (one_byte b0) as [Hc He]; [unfold byte in Hb; lia|]. left. exists b0, r. rewrite He. auto. }
  destruct r as [|b1 r1]; auto. destruct (valid2 b0 b1) eqn:E2.
  { destruct (two_bytes _ _ E2) as [Hc He]. left. eexists _, r1. rewrite He. auto. }
  destruct r1 as [|b2 r2]; auto. destruct (valid3 b0 b1 b2) eqn:E3.
  { destruct (three_bytes _ _ _ E3) as [Hc He]. left. eexists _, r2. rewrite He. auto. }
  destruct r2 as [|b3 r3]; auto. destruct (valid4 b0 b1 b2 b3) eqn:E4; auto.
  destruct (four_bytes _ _ _ _ E4) as [Hc He]. left. eexists _, r3. rewrite He. auto.
Qed.

Lemma encode_nonempty c : exists b r, encode c = b :: r.
Proof. unfold encode. destruct (c <? 128); [eauto|]. destruct (c <? 2048); [eauto|]. destruct (c <? 65536); eauto. Qed.

(** Whether some character starts at the front, decided. *)
Lemma starts_dec b0 r : byte b0 ->
  (exists c rest, character c /\ b0 :: r = encode c ++ rest) \/ (forall c rest, character c -> b0 :: r <> encode c ++ rest).
Proof.
  intros Hb. destruct (decode_step b0 r Hb) as [(c & rest & Hc & He & _)|Hd]; [left; eauto|].
  cbn [decode] in Hd. destruct (b0 <? 128) eqn:E0.
  { destruct (one_byte b0) as [Hc He]; [unfold byte in Hb; lia|]. left. exists b0, r. rewrite He. auto. }
  destruct r as [|b1 r1].
  { right. intros c rest [Hc Hs] He. unfold encode in He.
    destruct (Z.ltb_spec c 128); [inversion He; lia|]. destruct (c <? 2048); [discriminate|]. destruct (c <? 65536); discriminate. }
  destruct (valid2 b0 b1) eqn:E2.
  { destruct (two_bytes _ _ E2) as [Hc He]. left. eexists _, r1. rewrite He. auto. }
  destruct r1 as [|b2 r2].
  { right. intros c rest [Hc Hs] He. unfold encode in He.
    destruct (Z.ltb_spec c 128); [inversion He; lia|]. destruct (Z.ltb_spec c 2048); [|destruct (c <? 65536); discriminate].
    cbn [List.app] in He. apply cons_eq in He. destruct He as [-> He]. apply cons_eq in He. destruct He as [-> _]. pose proof (mod64 c). assert (2 <= c / 64 <= 31) by bits. unfold valid2, cont in E2. lia. }
  destruct (valid3 b0 b1 b2) eqn:E3.
  { destruct (three_bytes _ _ _ E3) as [Hc He]. left. eexists _, r2. rewrite He. auto. }
  assert (H23 : forall c rest, character c -> (length (encode c) <= 3)%nat -> b0 :: b1 :: b2 :: r2 <> encode c ++ rest).
  { intros c rest [Hc Hs] Hl He. unfold encode in He, Hl.
    destruct (Z.ltb_spec c 128); [inversion He; lia|].
    destruct (Z.ltb_spec c 2048). { cbn [List.app] in He. apply cons_eq in He. destruct He as [-> He]. apply cons_eq in He. destruct He as [-> _]. pose proof (mod64 c). assert (2 <= c / 64 <= 31) by bits. unfold valid2, cont in E2. lia. }
    destruct (Z.ltb_spec c 65536); [|simpl in Hl; lia]. cbn [List.app] in He. apply cons_eq in He. destruct He as [-> He]. apply cons_eq in He. destruct He as [-> He]. apply cons_eq in He. destruct He as [-> _].
    pose proof (mod64 c). pose proof (mod64 (c / 64)). assert (0 <= c / 4096 <= 15) by bits.
    assert (c = c / 4096 * 4096 + (c / 64 mod 64) * 64 + c mod 64) by bits. unfold valid3, cont in E3. lia. }
  assert (H4 : forall c, (length (encode c) <= 3)%nat \/ 65536 <= c /\ length (encode c) = 4%nat).
  { intros c. unfold encode. destruct (c <? 128); [simpl; lia|]. destruct (c <? 2048); [simpl; lia|].
    destruct (Z.ltb_spec c 65536); simpl; lia. }
  destruct r2 as [|b3 r3].
  { right. intros c rest Hc He. destruct (H4 c) as [H|[H H']]; [eapply H23; eauto|].
    apply (f_equal (@length Z)) in He. rewrite app_length, H' in He. simpl in He. lia. }
  destruct (valid4 b0 b1 b2 b3) eqn:E4.
  { destruct (four_bytes _ _ _ _ E4) as [Hc He]. left. eexists _, r3. rewrite He. auto. }
  right. intros c rest Hc He. destruct (H4 c) as [H|[H _]]; [eapply H23; eauto|].
  destruct Hc as [Hc _]. unfold encode in He. replace (c <? 128) with false in He by lia.
  replace (c <? 2048) with false in He by lia. replace (c <? 65536) with false in He by lia. cbn [List.app] in He.
  apply cons_eq in He. destruct He as [-> He]. apply cons_eq in He. destruct He as [-> He]. apply cons_eq in He. destruct He as [-> He]. apply cons_eq in He. destruct He as [-> _].
  pose proof (mod64 c). pose proof (mod64 (c / 64)). pose proof (mod64 (c / 4096)).
  assert (0 <= c / 262144 <= 4) by bits.
  assert (c = c / 262144 * 262144 + (c / 4096 mod 64) * 4096 + (c / 64 mod 64) * 64 + c mod 64) by bits.
  unfold valid4, cont in E4. lia.
Qed.

Lemma decode_meaning l : Forall byte l -> text_of l (decode l).
Proof.
  remember (length l) as n eqn:En. revert l En. induction n as [n IH] using (well_founded_induction lt_wf); intros l -> Hl.
  destruct l as [|b0 r]; [constructor|]. pose proof (Forall_inv Hl) as Hb.
  destruct (starts_dec b0 r Hb) as [(c & rest & Hc & He)|Hno].
  - rewrite He in *. rewrite decode_char by auto. constructor; auto.
    apply (IH (length rest)); auto.
    + rewrite app_length. destruct (encode_nonempty c) as (x & y & ->). simpl. lia.
    + apply Forall_app in Hl. tauto.
  - destruct (decode_step b0 r Hb) as [(c & rest & Hc & He & _)|Hd]; [destruct (Hno c rest); auto|].
    rewrite Hd. constructor; auto. apply (IH (length r)); auto. inversion Hl; auto.
Qed.

(** The text of some bytes is unique. *)
Lemma text_unique l cs : Forall byte l -> text_of l cs -> cs = decode l.
Proof.
  intros Hl H. induction H as [|c bytes cs Hc H IH|b bytes cs Hno H IH]; auto.
  - rewrite decode_char by auto. f_equal. apply IH. apply Forall_app in Hl. tauto.
  - destruct (decode_step b bytes (Forall_inv Hl)) as [(c & rest & Hc & He & _)|Hd]; [destruct (Hno c rest); auto|].
    rewrite Hd. f_equal. apply IH. inversion Hl; auto.
Qed.

Lemma bytes_are_bytes s : Forall byte (bytes_of s).
Proof.
  unfold bytes_of. apply Forall_map. apply Forall_forall. intros c _. unfold byte.
  pose proof (Ascii.nat_ascii_bounded c). lia.
Qed.

Lemma spells_runes s cs : spells s cs <-> runes_of s = cs.
Proof.
  unfold spells. split; intros H.
  - symmetry. apply text_unique; auto. apply bytes_are_bytes.
  - subst cs. apply decode_meaning, bytes_are_bytes.
Qed.

Lemma spelled s cs : Forall character cs -> bytes_of s = flat_map encode cs -> spells s cs.
Proof. intros Hc Hs. apply spells_runes. unfold runes_of. fold (bytes_of s). rewrite Hs. apply decode_text. auto. Qed.
