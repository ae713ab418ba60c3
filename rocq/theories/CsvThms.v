(** Lemmas about the reader of CSV files. *)
From Coq Require Import ZArith List Bool String Ascii Lia.
From Verif Require Import Num GoBase SpecUtf8 CsvModel SpecCsv.
Import ListNotations.
Open Scope list_scope.
Open Scope Z_scope.

(** ** Lines *)
Lemma rl_plain c Y : c <> 10 -> c <> 13 -> read_line (c :: Y) = (c :: fst (read_line Y), snd (read_line Y)).
Proof.
  intros H1 H2. unfold read_line. cbn [cut_line]. unfold lf. destruct (Z.eqb_spec c 10); [contradiction|]. destruct (cut_line Y) as [a b]. cbn [normal fst snd]. unfold cr. destruct (Z.eqb_spec c 13); [contradiction|]. reflexivity.
Qed.
Lemma rl_lf Y : read_line (10 :: Y) = ([10], Y).
Proof. reflexivity. Qed.
Lemma rl_crlf Y : read_line (13 :: 10 :: Y) = ([10], Y).
Proof. reflexivity. Qed.
Lemma rl_cr c Y : c <> 10 -> read_line (13 :: c :: Y) = (13 :: fst (read_line (c :: Y)), snd (read_line (c :: Y))).
Proof.
  intros H. unfold read_line. cbn [cut_line]. unfold lf. change (13 =? 10) with false. destruct (Z.eqb_spec c 10); [contradiction|]. destruct (cut_line Y) as [a b].
  change (normal (13 :: c :: a)) with (if (13 =? cr) && match a with [] => c =? 10 | _ => false end then c :: a else 13 :: normal (c :: a)).
  replace (match a with [] => c =? 10 | _ => false end) with false; [reflexivity|]. destruct a; auto. symmetry. apply Z.eqb_neq. auto.
Qed.
Lemma rl_app p Y : (forall c, In c p -> c <> 10 /\ c <> 13) -> read_line (p ++ Y) = (p ++ fst (read_line Y), snd (read_line Y)).
Proof.
  induction p as [|c p IH]; intros H; [apply surjective_pairing|]. cbn [app]. rewrite rl_plain by (apply H; left; auto). rewrite IH by (intros x Hx; apply H; right; auto). reflexivity.
Qed.
Lemma rl_nonempty X : In 34 X -> fst (read_line X) <> [].
Proof.
  destruct X as [|c X]; [intros []|]. intros H. destruct (Z.eq_dec c 10) as [->|H1]; [discriminate|]. destruct (Z.eq_dec c 13) as [->|H2]; [|rewrite rl_plain by auto; discriminate].
  destruct X as [|x X]; [destruct H as [H|[]]; discriminate H|]. destruct (Z.eq_dec x 10) as [->|H3]; [discriminate|]. rewrite rl_cr by auto. discriminate.
Qed.

(** ** Searching *)
Lemma starts_spec d l : starts_with d l = true -> exists b, l = d ++ b.
Proof.
  revert l. induction d as [|a d IH]; intros l H; [exists l; auto|]. destruct l as [|c l]; [discriminate|]. cbn in H. apply andb_true_iff in H. destruct H as [H1 H2]. destruct (IH l H2) as (b & ->). exists b. apply Z.eqb_eq in H1. cbn. f_equal. auto.
Qed.
Lemma starts_app d l : starts_with d (d ++ l) = true.
Proof. induction d as [|a d IH]; auto. cbn. rewrite Z.eqb_refl. auto. Qed.
Lemma starts_head a d c l : a <> c -> starts_with (a :: d) (c :: l) = false.
Proof. intros H. cbn. destruct (Z.eqb_spec a c); [contradiction|reflexivity]. Qed.
Lemma app_two (x y : list Z) : forall a b, x ++ y = a ++ b -> exists l, (x = a ++ l /\ b = l ++ y) \/ (a = x ++ l /\ y = l ++ b).
Proof.
  induction x as [|c x IH]; intros a b H; [exists a; right; auto|]. destruct a as [|e a]; [exists (c :: x); left; auto|]. cbn in H. injection H as -> H. destruct (IH a b H) as (l & [[-> ->]|[-> ->]]); exists l; [left|right]; auto.
Qed.
Section Sep.
Variable r : Z.
Hypothesis Hr : separator r.
Notation d := (encode r).
Lemma sep_facts : exists h tl, d = h :: tl /\ (forall b, In b d -> b <> 10 /\ b <> 13 /\ b <> 34) /\ ~ In h tl.
Proof.
  destruct Hr as [[Hc Hs] Hn]. assert (Hn' : r <> 0 /\ r <> 10 /\ r <> 13 /\ r <> 34) by (repeat split; intros ->; apply Hn; simpl; tauto). clear Hn. unfold encode.
  assert (M : forall x, 0 <= x mod 64 < 64) by (intros x; apply Z.mod_pos_bound; lia).
  destruct (Z.ltb_spec r 128); [|destruct (Z.ltb_spec r 2048); [|destruct (Z.ltb_spec r 65536)]].
  - exists r, []. split; auto. split; [intros b [<-|[]]; tauto|]. intros [].
  - exists (192 + r / 64), [128 + r mod 64]. split; auto. pose proof (M r). assert (0 <= r / 64) by (apply Z.div_pos; lia). split; [intros b [<-|[<-|[]]]; lia|]. intros [E|[]]. lia.
  - exists (224 + r / 4096), [128 + r / 64 mod 64; 128 + r mod 64]. split; auto. pose proof (M r). pose proof (M (r / 64)). assert (0 <= r / 4096) by (apply Z.div_pos; lia). split; [intros b [<-|[<-|[<-|[]]]]; lia|]. intros [E|[E|[]]]; lia.
  - exists (240 + r / 262144), [128 + r / 4096 mod 64; 128 + r / 64 mod 64; 128 + r mod 64]. split; auto. pose proof (M r). pose proof (M (r / 64)). pose proof (M (r / 4096)). assert (0 <= r / 262144) by (apply Z.div_pos; lia).
    split; [intros b [<-|[<-|[<-|[<-|[]]]]]; lia|]. intros [E|[E|[E|[]]]]; lia.
Qed.
Lemma index_app f l : ~ occurs d f -> index_of d (f ++ d ++ l) = Some (List.length f).
Proof.
  destruct sep_facts as (h & tl & E & _ & Ht). rewrite E. induction f as [|c f IH]; intros H.
  - cbn [app]. change (h :: tl ++ l) with ((h :: tl) ++ l). destruct ((h :: tl) ++ l) as [|x y] eqn:El; [discriminate El|]. cbn [index_of]. rewrite <- El, starts_app. reflexivity.
  - cbn [app index_of]. destruct (starts_with (h :: tl) (c :: f ++ h :: tl ++ l)) eqn:Es.
    + exfalso. apply starts_spec in Es. destruct Es as (b & Es). cbn [app] in Es. injection Es as -> Es. destruct (app_two _ _ _ _ Es) as (x & [[-> _]|[-> Ey]]).
      * apply H. exists [], x. reflexivity.
      * destruct x as [|y x]; [apply H; exists [], []; cbn; rewrite !app_nil_r; reflexivity|]. cbn in Ey. injection Ey as -> _. apply Ht. apply in_or_app. right. left. auto.
    + cbn [app] in IH. rewrite IH; [reflexivity|]. intros (a & b & ->). apply H. exists (c :: a), b. reflexivity.
Qed.
Lemma index_none f nl : ~ occurs d f -> nl = [] \/ nl = [10] -> index_of d (f ++ nl) = None.
Proof.
  destruct sep_facts as (h & tl & E & Hb & Ht). rewrite E in *. intros H Hnl. induction f as [|c f IH].
  - destruct Hnl as [-> | ->]; [reflexivity|]. cbn [app index_of]. rewrite starts_head by (apply Hb; left; auto). reflexivity.
  - cbn [app index_of]. destruct (starts_with (h :: tl) (c :: f ++ nl)) eqn:Es.
    + exfalso. apply starts_spec in Es. destruct Es as (b & Es). cbn [app] in Es. injection Es as -> Es. destruct (app_two _ _ _ _ Es) as (x & [[-> _]|[-> Ey]]).
      * apply H. exists [], x. reflexivity.
      * destruct x as [|y x]; [apply H; exists [], []; cbn; rewrite !app_nil_r; reflexivity|]. destruct Hnl as [-> | ->]; [discriminate Ey|]. cbn in Ey. injection Ey as <- _.
        destruct (Hb 10) as [K _]; [|apply K; auto]. right. apply in_or_app. right. left. auto.
    + rewrite IH; [reflexivity|]. intros (a & b & ->). apply H. exists (c :: a), b. reflexivity.
Qed.

(** ** Fields in quotes *)
Lemma parse_shift k buf c l rest fields : c <> 34 -> l <> [] -> parse (S k) d (Some buf) (c :: l) rest fields = parse (S k) d (Some (buf ++ [c])) l rest fields.
Proof.
  intros H Hl. cbn [parse]. cbn [index_of]. rewrite (starts_head quote []) by (intros E; apply H; rewrite <- E; reflexivity). destruct l as [|x l]; [congruence|].
  destruct (index_of [quote] (x :: l)) as [i|]; cbn [option_map].
  - change (firstn (S i) (c :: x :: l)) with (c :: firstn i (x :: l)). change (skipn (S (S i)) (c :: x :: l)) with (skipn (S i) (x :: l)). replace (buf ++ c :: firstn i (x :: l)) with ((buf ++ [c]) ++ firstn i (x :: l)) by (rewrite <- app_assoc; reflexivity). reflexivity.
  - rewrite <- app_assoc. reflexivity.
Qed.
Lemma quoted f : forall buf k Y fields, ~ occurs [13; 10] f -> (List.length (doubled f ++ 34%Z :: Y) <= k)%nat ->
  exists k', (List.length Y <= k')%nat /\
    parse (S k) d (Some buf) (fst (read_line (doubled f ++ 34 :: Y))) (snd (read_line (doubled f ++ 34 :: Y))) fields =
    parse (S k') d (Some (buf ++ f)) (34 :: fst (read_line Y)) (snd (read_line Y)) fields.
Proof.
  induction f as [|c f IH]; intros buf k Y fields Hf Hk.
  - exists k. split; [cbn in Hk; lia|]. cbn [doubled flat_map app]. rewrite rl_plain by discriminate. rewrite app_nil_r. reflexivity.
  - assert (Hf' : ~ occurs [13; 10] f) by (intros (a & b & ->); apply Hf; exists (c :: a), b; reflexivity).
    assert (Hin : In 34 (doubled f ++ 34 :: Y)) by (apply in_or_app; right; left; auto).
    change (doubled (c :: f)) with ((if c =? quote_byte then [quote_byte; quote_byte] else [c]) ++ doubled f) in *. destruct (Z.eqb_spec c quote_byte) as [->|Hc].
    + unfold quote_byte in *. cbn [app] in *. cbn [List.length] in Hk. rewrite rl_plain by discriminate. rewrite rl_plain by discriminate. cbn [fst snd].
      destruct k as [|k]; [lia|]. destruct (IH (buf ++ [34]) k Y fields Hf') as (k' & Hk' & E); [lia|]. exists k'. split; auto. rewrite <- app_assoc in E. cbn [app] in E. rewrite <- E.
      change (parse (S (S k)) d (Some buf) (34 :: 34 :: fst (read_line (doubled f ++ 34 :: Y))) (snd (read_line (doubled f ++ 34 :: Y))) fields) with
        (parse (S k) d (Some ((buf ++ []) ++ [34])) (fst (read_line (doubled f ++ 34 :: Y))) (snd (read_line (doubled f ++ 34 :: Y))) fields). rewrite app_nil_r. reflexivity.
    + cbn [app] in *. cbn [List.length] in Hk. destruct (Z.eq_dec c 10) as [->|H1].
      * rewrite rl_lf. cbn [fst snd]. destruct k as [|k]; [lia|]. destruct (IH (buf ++ [10]) k Y fields Hf') as (k' & Hk' & E); [lia|]. exists k'. split; auto. rewrite <- app_assoc in E. cbn [app] in E. rewrite <- E.
        transitivity (let '(next, rest) := read_line (doubled f ++ 34 :: Y) in parse (S k) d (Some (buf ++ [10])) next rest fields); [reflexivity|]. destruct (read_line (doubled f ++ 34 :: Y)). reflexivity.
      * assert (E1 : read_line (c :: doubled f ++ 34 :: Y) = (c :: fst (read_line (doubled f ++ 34 :: Y)), snd (read_line (doubled f ++ 34 :: Y)))).
        { destruct (Z.eq_dec c 13) as [->|H2]; [|apply rl_plain; auto]. destruct f as [|x f]; [apply rl_cr; discriminate|].
          assert (Hx : x <> 10) by (intros ->; apply Hf; exists [], f; reflexivity). unfold doubled. cbn [flat_map]. destruct (x =? quote_byte); apply rl_cr; auto; discriminate. }
        rewrite E1. cbn [fst snd]. rewrite parse_shift; [|exact Hc|apply rl_nonempty; auto]. destruct (IH (buf ++ [c]) k Y fields Hf') as (k' & Hk' & E); [lia|]. exists k'. split; auto. rewrite <- app_assoc in E. exact E.
Qed.

(** ** Records *)
Lemma no_quote l : ~ In 34 l -> existsb (Z.eqb quote) l = false.
Proof. intros H. destruct (existsb (Z.eqb quote) l) eqn:E; auto. apply existsb_exists in E. destruct E as (x & Hx & E). exfalso. apply H. apply Z.eqb_eq in E. unfold quote in E. subst x. auto. Qed.
Lemma no_start l : ~ In 34 l -> starts_with [quote] l = false.
Proof. intros H. destruct l as [|c l]; auto. apply starts_head. intros E. apply H. left. rewrite <- E. reflexivity. Qed.
Lemma drop_lf_app f nl : ~ In 10 f -> nl = [] \/ nl = [10] -> drop_lf (f ++ nl) = f.
Proof.
  intros H [-> | ->].
  - rewrite app_nil_r. unfold drop_lf. destruct (rev f) as [|c l] eqn:E; auto. destruct (Z.eqb_spec c lf) as [->|]; auto. exfalso. apply H. apply in_rev. rewrite E. left. reflexivity.
  - unfold drop_lf. rewrite rev_app_distr. cbn. apply rev_involutive.
Qed.
Lemma parse_quote k d' line rest fields : parse (S k) d' None (34 :: line) rest fields = parse k d' (Some []) line rest fields.
Proof. reflexivity. Qed.
Lemma parse_close k buf line rest fields : starts_with [quote] line = false ->
  parse (S k) d (Some buf) (34 :: line) rest fields =
  if starts_with d line then parse k d None (skipn (List.length d) line) rest (fields ++ [buf]) else if is_blank line then Ok (fields ++ [buf], rest) else Err (EMsg "extraneous quote").
Proof.
  intros H. transitivity (let l := line in let b := buf ++ [] in if starts_with [quote] l then parse k d (Some (b ++ [quote])) (skipn 1 l) rest fields
    else if starts_with d l then parse k d None (skipn (List.length d) l) rest (fields ++ [b]) else if is_blank l then Ok (fields ++ [b], rest) else Err (EMsg "extraneous quote")); [reflexivity|].
  cbv zeta. rewrite H, app_nil_r. reflexivity.
Qed.
Definition tail_of (Y Z' : list Z) : Prop := ((Y = [] \/ Y = [13]) /\ Z' = []) \/ exists e, line_end e /\ Y = e ++ Z'.
Lemma rl_tail Y Z' : tail_of Y Z' -> exists nl, (nl = [] \/ nl = [10]) /\ read_line Y = (nl, Z').
Proof. intros [[[-> | ->] ->]|(e & [-> | ->] & ->)]; [exists []|exists []|exists [10]|exists [10]]; split; auto. Qed.
Lemma record_parse fs t : record_text r fs t -> forall k fields Y Z', tail_of Y Z' -> (List.length (t ++ Y) <= k)%nat ->
  parse (S k) d None (fst (read_line (t ++ Y))) (snd (read_line (t ++ Y))) fields = Ok (fields ++ map bytes_of fs, Z').
Proof.
  destruct sep_facts as (h & tl & E & Hb & _).
  assert (Hd : forall c, In c d -> c <> 10 /\ c <> 13) by (intros c Hc; destruct (Hb c Hc) as (? & ? & ?); auto).
  assert (Hs : forall l, starts_with [quote] (d ++ l) = false) by (intros l; rewrite E; apply starts_head; intros K; destruct (Hb h) as (_ & _ & K'); [rewrite E; left; auto|]; apply K'; rewrite <- K; reflexivity).
  assert (Hl : (1 <= List.length d)%nat) by (rewrite E; cbn; lia).
  induction 1 as [f t Ht|f t fs ts Ht Hts IH]; intros k fields Y Z' HY Hk.
  - destruct (rl_tail Y Z' HY) as (nl & Hnl & EY). destruct Ht as [Q L C O|O].
    + rewrite rl_app by (intros c Hc; split; intros ->; contradiction). rewrite EY. cbn [fst snd parse]. rewrite no_start by (intros Hi; apply in_app_or in Hi; destruct Hi as [Hi|Hi]; [contradiction|destruct Hnl as [-> | ->]; [destruct Hi|destruct Hi as [Hi|[]]; discriminate Hi]]).
      rewrite index_none by auto. rewrite drop_lf_app by auto. rewrite no_quote by auto. reflexivity.
    + unfold quote_byte in *. cbn [app] in *. rewrite <- app_assoc in *. cbn [app] in *. rewrite rl_plain by discriminate. cbn [fst snd]. rewrite parse_quote. cbn [List.length] in Hk. destruct k as [|k]; [lia|].
      destruct (quoted (bytes_of f) [] k Y fields O) as (k' & Hk' & Eq); [lia|]. rewrite Eq. cbn [app]. rewrite EY. cbn [fst snd]. rewrite parse_close by (destruct Hnl as [-> | ->]; reflexivity).
      replace (starts_with d nl) with false; [destruct Hnl as [-> | ->]; reflexivity|]. symmetry. rewrite E. destruct Hnl as [-> | ->]; [reflexivity|]. apply starts_head. apply (Hd h). rewrite E. left. auto.
  - rewrite <- app_assoc in *. rewrite <- app_assoc in *. assert (El : read_line (d ++ ts ++ Y) = (d ++ fst (read_line (ts ++ Y)), snd (read_line (ts ++ Y)))) by (apply rl_app; auto). destruct Ht as [Q L C O|O].
    + rewrite rl_app by (intros c Hc; split; intros ->; contradiction). rewrite El. rewrite !app_length in Hk. cbn [fst snd parse].
      replace (starts_with [quote] (bytes_of f ++ d ++ fst (read_line (ts ++ Y)))) with false by (symmetry; destruct (bytes_of f) as [|c l] eqn:Ef; [apply Hs|]; cbn [app]; apply starts_head; intros K; apply Q; left; rewrite <- K; reflexivity).
      rewrite index_app by auto. rewrite firstn_app, Nat.sub_diag, firstn_all, firstn_O, app_nil_r, no_quote by auto. rewrite app_assoc, <- app_length, skipn_app, Nat.sub_diag, skipn_all. cbn [skipn app].
      destruct k as [|k]; [lia|]. rewrite (IH k (fields ++ [bytes_of f]) Y Z' HY) by (rewrite app_length; lia). rewrite <- app_assoc. reflexivity.
    + unfold quote_byte in *. cbn [app] in *. rewrite <- app_assoc in *. cbn [app] in *. rewrite rl_plain by discriminate. cbn [fst snd]. rewrite parse_quote. cbn [List.length] in Hk. destruct k as [|k]; [lia|].
      destruct (quoted (bytes_of f) [] k (d ++ ts ++ Y) fields O) as (k' & Hk' & Eq); [lia|]. rewrite Eq. cbn [app]. rewrite El. cbn [fst snd]. rewrite parse_close by apply Hs. rewrite starts_app.
      rewrite skipn_app, Nat.sub_diag, skipn_all. cbn [skipn app]. rewrite app_length in Hk'. destruct k' as [|k']; [lia|]. rewrite (IH k' (fields ++ [bytes_of f]) Y Z' HY) by lia. rewrite <- app_assoc. reflexivity.
Qed.
Lemma record_head fs c t : record_text r fs (c :: t) -> c <> 10 /\ c <> 13.
Proof.
  destruct sep_facts as (h & tl & E & Hb & _). intros H. inversion H as [f t' Ht E1 E2|f t' fs' ts Ht Hts E1 E2]; subst.
  - inversion Ht as [Q L C O E3|O E3]; [|split; discriminate]. split; intros ->; [apply L|apply C]; rewrite E3; left; auto.
  - inversion Ht as [Q L C O E3|O E3]; subst t'; [|cbn [app] in E2; injection E2 as <- _; split; discriminate]. destruct (bytes_of f) as [|x l]; cbn [app] in E2.
    + rewrite E in E2. cbn [app] in E2. injection E2 as <- _. destruct (Hb h) as (? & ? & ?); [rewrite E; left; auto|]. auto.
    + injection E2 as <- _. split; intros ->; [apply L|apply C]; left; auto.
Qed.
Lemma file_records rs X : file_text r rs X -> forall k, (List.length X <= k)%nat -> records (S k) d X = Ok (map (map bytes_of) rs).
Proof.
  assert (R : forall fs t Y Z' k, record_text r fs t -> t <> [] -> tail_of Y Z' -> records (S k) d (t ++ Y) = let! others := records k d Z' in Ok (map bytes_of fs :: others)).
  { intros fs t Y Z' k Ht Hne HY. destruct t as [|c t]; [congruence|]. pose proof (record_head _ _ _ Ht) as [H1 H2]. pose proof (record_parse _ _ Ht (List.length ((c :: t) ++ Y)) [] Y Z' HY (le_n _)) as P.
    cbn [app] in *. cbn [records]. assert (Eb : is_blank (fst (read_line (c :: t ++ Y))) = false).
    { rewrite rl_plain by auto. cbn [fst is_blank]. destruct (fst (read_line (t ++ Y))); auto. apply Z.eqb_neq. auto. }
    destruct (read_line (c :: t ++ Y)) as [line rest]. cbn [fst snd] in *. rewrite Eb, P. reflexivity. }
  induction 1 as [|e rs t He Ht IH|fs t Ht Hne|fs t e rs t' Ht Hne He Hr' IH| |fs t Ht Hne]; intros k Hk.
  - reflexivity.
  - rewrite app_length in Hk. destruct k as [|k]; [destruct He as [-> | ->]; cbn in Hk; lia|]. rewrite <- (IH k) by (destruct He as [-> | ->]; cbn in Hk; lia). destruct He as [-> | ->]; reflexivity.
  - rewrite <- (app_nil_r t). rewrite (R fs t [] [] k Ht Hne) by (left; auto). destruct k as [|k]; [destruct t; [congruence|cbn in Hk; lia]|]. reflexivity.
  - rewrite !app_length in Hk. rewrite (R fs t (e ++ t') t' k Ht Hne) by (right; exists e; auto). destruct k as [|k]; [destruct t; [congruence|cbn in Hk; lia]|]. rewrite IH by (destruct t; [congruence|]; cbn in Hk; lia). reflexivity.
  - destruct k as [|k]; [cbn in Hk; lia|]. reflexivity.
  - rewrite app_length in Hk. rewrite (R fs t [13] [] k Ht Hne) by (left; auto). destruct k as [|k]; [cbn in Hk; lia|]. reflexivity.
Qed.
End Sep.

Lemma byte_string_of s : byte_string (bytes_of s) = s.
Proof.
  unfold byte_string, bytes_of. rewrite map_map, <- (string_of_list_ascii_of_string s) at 1. rewrite list_ascii_of_string_of_list_ascii. rewrite (map_ext _ (fun c => c)) by (intros c; rewrite Nat2Z.id; apply ascii_nat_embedding).
  rewrite map_id. apply string_of_list_ascii_of_string.
Qed.
Lemma separator_valid r : separator r <-> valid_delim r = true.
Proof.
  unfold separator, valid_delim, character, quote, cr, lf. rewrite !andb_true_iff, orb_true_iff, !andb_true_iff, !negb_true_iff, !Z.eqb_neq, !Z.leb_le, !Z.ltb_lt. split.
  - intros [[H1 H2] H3]. cbn in H3. repeat match goal with |- _ /\ _ => split end; try (intros ->; tauto). lia.
  - intros (((((A & B) & C) & D) & E) & F). split; [lia|]. cbn. intuition.
Qed.
Theorem csv_read_text r rs text : separator r -> file_text r rs text -> csv_read r text = Ok rs.
Proof.
  intros Hr H. unfold csv_read. rewrite (proj1 (separator_valid r) Hr). change (rune_bytes r) with (encode r). rewrite (file_records r Hr rs text H) by auto. cbn [gbind]. rewrite map_map. f_equal.
  rewrite (map_ext _ (fun x => x)), map_id; auto. intros fs. rewrite map_map. rewrite (map_ext _ (fun x => x)), map_id; auto. apply byte_string_of.
Qed.

(** ** Quotes come in pairs *)
Definition quotes (l : list Z) : nat := List.length (filter (Z.eqb 34) l).
Lemma quotes_app a b : quotes (a ++ b) = (quotes a + quotes b)%nat.
Proof. unfold quotes. rewrite filter_app, app_length. reflexivity. Qed.
Lemma quotes_cons c l : quotes (c :: l) = ((if Z.eqb 34 c then 1 else 0) + quotes l)%nat.
Proof. unfold quotes. cbn [filter]. destruct (34 =? c); reflexivity. Qed.
Lemma quotes_none l : existsb (Z.eqb quote) l = false -> quotes l = 0%nat.
Proof. induction l as [|c l IH]; auto. cbn [existsb]. intros H. apply orb_false_iff in H. destruct H as [H1 H2]. rewrite quotes_cons, IH by auto. change (34 =? c) with (quote =? c). rewrite H1. reflexivity. Qed.
Lemma quotes_line l : quotes l = (quotes (fst (read_line l)) + quotes (snd (read_line l)))%nat.
Proof.
  assert (C : forall l, quotes l = (quotes (fst (cut_line l)) + quotes (snd (cut_line l)))%nat).
  { induction l0 as [|c l0 IH]; auto. cbn [cut_line]. destruct (Z.eqb_spec c lf) as [->|]; [reflexivity|]. destruct (cut_line l0) as [a b]. cbn [fst snd] in *. rewrite !quotes_cons, IH. lia. }
  assert (N : forall l, quotes (normal l) = quotes l).
  { induction l0 as [|c l0 IH]; auto. cbn [normal]. destruct (Z.eqb_spec c cr) as [->|]; cbn [andb]; [|rewrite !quotes_cons, IH; auto].
    destruct (match l0 with [] => true | [x] => x =? lf | _ => false end); rewrite !quotes_cons; [reflexivity|rewrite IH; auto]. }
  rewrite (C l). unfold read_line. destruct (cut_line l) as [a b]. cbn [fst snd]. rewrite N. auto.
Qed.
Lemma quotes_split i l : quotes l = (quotes (firstn i l) + quotes (skipn i l))%nat.
Proof. rewrite <- quotes_app, firstn_skipn. auto. Qed.
Lemma skipn_twice i j : forall l : list Z, skipn (i + j) l = skipn j (skipn i l).
Proof. induction i as [|i IH]; intros l; auto. destruct l as [|c l]; [cbn [skipn]; destruct j; reflexivity|]. apply IH. Qed.
Lemma quotes_drop_lf l : quotes (drop_lf l) = quotes l.
Proof.
  unfold drop_lf. destruct (rev l) as [|c x] eqn:E; auto. destruct (Z.eqb_spec c lf) as [->|]; auto. rewrite <- (rev_involutive l), E. cbn [rev]. rewrite quotes_app. cbn. lia.
Qed.
Lemma starts_quote c l : starts_with [quote] (c :: l) = (34 =? c).
Proof. cbn [starts_with]. apply andb_true_r. Qed.
Lemma index_quote l i : index_of [quote] l = Some i -> quotes (firstn i l) = 0%nat /\ exists l', skipn i l = 34 :: l' /\ skipn (S i) l = l'.
Proof.
  revert i. induction l as [|c l IH]; intros i H; [discriminate H|]. cbn [index_of] in H. destruct (starts_with [quote] (c :: l)) eqn:Es.
  - injection H as <-. split; auto. rewrite starts_quote in Es. apply Z.eqb_eq in Es. exists l. split; auto. cbn [skipn]. rewrite <- Es. auto.
  - destruct (index_of [quote] l) as [j|]; [|discriminate H]. injection H as <-. destruct (IH j eq_refl) as (Q & l' & H1 & H2). split; [|exists l'; auto]. cbn [firstn]. rewrite quotes_cons, Q.
    rewrite starts_quote in Es. rewrite Es. reflexivity.
Qed.
Lemma index_no_quote l : index_of [quote] l = None -> quotes l = 0%nat.
Proof.
  induction l as [|c l IH]; auto. cbn [index_of]. destruct (starts_with [quote] (c :: l)) eqn:Es; [discriminate|]. destruct (index_of [quote] l); [discriminate|]. intros _. rewrite quotes_cons, IH by auto.
  rewrite starts_quote in Es. rewrite Es. reflexivity.
Qed.
Lemma index_found d l : forall i, index_of d l = Some i -> starts_with d (skipn i l) = true.
Proof.
  induction l as [|c l IH]; intros i H.
  - cbn [index_of] in H. destruct (starts_with d []) eqn:E; [|discriminate H]. injection H as <-. auto.
  - cbn [index_of] in H. destruct (starts_with d (c :: l)) eqn:E; [injection H as <-; auto|]. destruct (index_of d l) as [j|]; [|discriminate H]. injection H as <-. apply IH. auto.
Qed.
Lemma parse_quotes d : quotes d = 0%nat -> forall k inside line rest fields fs rest', parse k d inside line rest fields = Ok (fs, rest') ->
  Nat.even (quotes line + quotes rest + match inside with Some _ => 1 | None => 0 end + quotes rest') = true.
Proof.
  intros Hd. assert (Sk : forall l, starts_with d l = true -> quotes (skipn (List.length d) l) = quotes l).
  { intros l H. destruct (starts_spec d l H) as (b & ->). rewrite skipn_app, Nat.sub_diag, skipn_all, (quotes_app d), Hd. reflexivity. }
  assert (Q : forall l, starts_with [quote] l = true -> quotes l = S (quotes (skipn 1 l))).
  { intros l H. destruct (starts_spec _ l H) as (b & ->). reflexivity. }
  induction k as [|k IH]; intros inside line rest fields fs rest' H; [discriminate H|]. cbn [parse] in H. destruct inside as [buf|].
  - destruct (index_of [quote] line) as [i|] eqn:Ei.
    + destruct (index_quote line i Ei) as (E0 & l' & E1 & E2). rewrite E2 in H. pose proof (quotes_split i line) as E3. rewrite E0, E1, quotes_cons in E3. change (34 =? 34) with true in E3. rewrite E3.
      destruct (starts_with [quote] l') eqn:S1; [|destruct (starts_with d l') eqn:S2; [|destruct (is_blank l') eqn:S3; [|discriminate H]]].
      * apply IH in H. rewrite (Q l' S1). rewrite <- H. replace (0 + (1 + S (quotes (skipn 1 l'))) + quotes rest + 1 + quotes rest')%nat with (S (S (quotes (skipn 1 l') + quotes rest + 1 + quotes rest'))) by lia. reflexivity.
      * apply IH in H. rewrite (Sk l' S2) in H. rewrite <- H. replace (0 + (1 + quotes l') + quotes rest + 1 + quotes rest')%nat with (S (S (quotes l' + quotes rest + 0 + quotes rest'))) by lia. reflexivity.
      * injection H as _ <-. assert (E4 : quotes l' = 0%nat) by (destruct l' as [|c [|]]; try discriminate S3; auto; cbn [is_blank] in S3; apply Z.eqb_eq in S3; subst c; reflexivity). rewrite E4.
        replace (0 + (1 + 0) + quotes rest + 1 + quotes rest)%nat with (2 * (1 + quotes rest))%nat by lia. rewrite Nat.even_mul. reflexivity.
    + pose proof (index_no_quote line Ei) as E0. destruct line as [|c line]; [discriminate H|]. destruct (read_line rest) as [next rest0] eqn:Er. apply IH in H. rewrite E0. pose proof (quotes_line rest) as E1. rewrite Er in E1. cbn [fst snd] in E1. rewrite E1. rewrite <- H. f_equal.
  - destruct (starts_with [quote] line) eqn:S1; [|destruct (index_of d line) as [i|] eqn:Ei].
    + apply IH in H. rewrite (Q line S1). rewrite <- H. f_equal. lia.
    + destruct (existsb (Z.eqb quote) (firstn i line)) eqn:Ef; [discriminate H|]. apply IH in H. apply quotes_none in Ef. rewrite (quotes_split i line), Ef. rewrite <- (Sk _ (index_found d line i Ei)). rewrite <- H. f_equal.
      assert (E : skipn (i + List.length d) line = skipn (List.length d) (skipn i line)) by apply skipn_twice. rewrite E. lia.
    + destruct (existsb (Z.eqb quote) (drop_lf line)) eqn:Ef; [discriminate H|]. apply quotes_none in Ef. rewrite quotes_drop_lf in Ef. injection H as _ <-. rewrite Ef.
      replace (0 + quotes rest + 0 + quotes rest)%nat with (2 * quotes rest)%nat by lia. rewrite Nat.even_mul. reflexivity.
Qed.
Lemma even_plus a b : Nat.even (a + b) = true -> Nat.even b = true -> Nat.even a = true.
Proof. rewrite Nat.even_add. intros H E. rewrite E in H. destruct (Nat.even a); auto. Qed.
Lemma records_quotes d : quotes d = 0%nat -> forall k l rs, records k d l = Ok rs -> Nat.even (quotes l) = true.
Proof.
  intros Hd. induction k as [|k IH]; intros l rs H; [discriminate H|]. cbn [records] in H. destruct l as [|c l]; auto. set (x := c :: l) in *. rewrite (quotes_line x). destruct (read_line x) as [line rest]. cbn [fst snd]. destruct (is_blank line) eqn:Eb.
  - replace (quotes line) with 0%nat; [apply (IH rest rs); auto|]. destruct line as [|b [|]]; try discriminate Eb; auto. cbn [is_blank] in Eb. apply Z.eqb_eq in Eb. subst b. reflexivity.
  - destruct (parse (S (List.length x)) d None line rest []) as [[fs rest']| |] eqn:Ep; cbn [gbind] in H; try discriminate H. destruct (records k d rest') as [others| |] eqn:Er; cbn [gbind] in H; try discriminate H.
    apply (parse_quotes d Hd) in Ep. rewrite Nat.add_0_r in Ep. apply (even_plus _ _ Ep). apply (IH rest' others Er).
Qed.
Theorem read_quotes r text rs : csv_read r text = Ok rs -> Nat.even (quotes text) = true.
Proof.
  unfold csv_read. intros H. destruct (valid_delim r) eqn:Ev; [|discriminate H]. destruct (records (S (List.length text)) (rune_bytes r) text) as [l| |] eqn:E; cbn [gbind] in H; try discriminate H.
  apply (records_quotes (rune_bytes r)) in E; auto. change (rune_bytes r) with (encode r). destruct (sep_facts r (proj2 (separator_valid r) Ev)) as (h & tl & _ & Hb & _).
  apply quotes_none. apply no_quote. intros Hi. destruct (Hb 34 Hi) as (_ & _ & K). apply K. auto.
Qed.
