(** Mixed-radix arithmetic: tuples of digits and flat positions. *)
From Coq Require Import ZArith List Bool Lia Arith PeanoNat.
Import ListNotations.

(** Number of tuples. *)
Fixpoint prod (ns : list nat) : nat :=
  match ns with [] => 1 | n :: r => n * prod r end.

(** Position of a tuple in row-major order (last digit fastest). *)
Fixpoint flat (ns t : list nat) : nat :=
  match ns, t with
  | n :: ns', k :: t' => k * prod ns' + flat ns' t'
  | _, _ => 0
  end.

(** Tuple at a position. *)
Fixpoint tup (ns : list nat) (i : nat) : list nat :=
  match ns with
  | [] => []
  | n :: r => (i / prod r) mod n :: tup r i
  end.

Definition inb (ns t : list nat) : Prop := Forall2 (fun n k => k < n) ns t.

Lemma inb_length ns t : inb ns t -> length ns = length t.
Proof. induction 1; simpl; auto. Qed.

Lemma prod_app a b : prod (a ++ b) = prod a * prod b.
Proof. induction a; simpl; lia. Qed.

Lemma prod_pos ns t : inb ns t -> 0 < prod ns.
Proof.
  induction 1; simpl; [lia|]. nia.
Qed.

Lemma flat_lt ns t : inb ns t -> flat ns t < prod ns.
Proof.
  induction 1; simpl; [lia|]. nia.
Qed.

Lemma flat_app ns ms t u : length ns = length t ->
  flat (ns ++ ms) (t ++ u) = flat ns t * prod ms + flat ms u.
Proof.
  revert t; induction ns; destruct t; simpl; intros; try lia.
  rewrite IHns by lia. rewrite prod_app. lia.
Qed.

Lemma tup_length ns i : length (tup ns i) = length ns.
Proof. induction ns; simpl; auto. Qed.

Lemma prod_pos_forall ns : 0 < prod ns -> Forall (fun n => 0 < n) ns.
Proof. induction ns; simpl; constructor; try apply IHns; nia. Qed.

Lemma forall_prod_pos ns : Forall (fun n => 0 < n) ns -> 0 < prod ns.
Proof. induction 1; simpl; nia. Qed.

Lemma tup_inb ns i : 0 < prod ns -> inb ns (tup ns i).
Proof.
  induction ns; simpl; intros; constructor.
  - apply Nat.mod_upper_bound. nia.
  - apply IHns. nia.
Qed.

Lemma flat_tup ns i : 0 < prod ns -> flat ns (tup ns i) = i mod prod ns.
Proof.
  induction ns; simpl; intros; auto.
  rewrite IHns by nia.
  rewrite (Nat.mul_comm a (prod ns)).
  rewrite Nat.mod_mul_r by nia. lia.
Qed.

Lemma flat_tup_lt ns i : i < prod ns -> flat ns (tup ns i) = i.
Proof. intros. rewrite flat_tup by lia. apply Nat.mod_small; auto. Qed.

Lemma tup_add ns i c : 0 < prod ns -> tup ns (c * prod ns + i) = tup ns i.
Proof.
  revert i c; induction ns; simpl; intros; auto.
  assert (0 < prod ns) by nia. assert (0 < a) by nia.
  f_equal.
  - replace (c * (a * prod ns) + i) with (i + (c * a) * prod ns) by lia.
    rewrite Nat.div_add by lia. rewrite Nat.mod_add by lia. auto.
  - replace (c * (a * prod ns) + i) with ((c * a) * prod ns + i) by lia. apply IHns. auto.
Qed.

Lemma tup_mod ns i : 0 < prod ns -> tup ns (i mod prod ns) = tup ns i.
Proof.
  intros. rewrite (Nat.div_mod i (prod ns)) at 2 by lia.
  rewrite (Nat.mul_comm (prod ns)). rewrite tup_add; auto.
Qed.

Lemma tup_flat ns t : inb ns t -> tup ns (flat ns t) = t.
Proof.
  induction 1; simpl; auto.
  assert (flat l l' < prod l) by (apply flat_lt; auto).
  f_equal.
  - rewrite Nat.add_comm, Nat.div_add by lia. rewrite Nat.div_small by auto. simpl. apply Nat.mod_small; auto.
  - rewrite tup_add; auto. lia.
Qed.

Lemma flat_inj ns t u : inb ns t -> inb ns u -> flat ns t = flat ns u -> t = u.
Proof.
  intros Ht Hu H. rewrite <- (tup_flat ns t), <- (tup_flat ns u) by auto. congruence.
Qed.

Lemma inb_app ns ms t u : inb ns t -> inb ms u -> inb (ns ++ ms) (t ++ u).
Proof. apply Forall2_app. Qed.

(** Successor tuple: the last digit moves fastest. *)
Fixpoint succ_tup (ns t : list nat) : list nat * bool :=
  match ns, t with
  | n :: ns', k :: t' =>
      let '(r, carry) := succ_tup ns' t' in
      if carry then if S k <? n then (S k :: r, false) else (0 :: r, true)
      else (k :: r, false)
  | _, _ => ([], true)
  end.

Lemma succ_tup_spec ns t : inb ns t ->
  let '(u, carry) := succ_tup ns t in
  inb ns u /\
  (if carry then S (flat ns t) = prod ns /\ flat ns u = 0
   else flat ns u = S (flat ns t)).
Proof.
  induction 1; simpl; [split; [constructor|lia]|].
  destruct (succ_tup l l') as [r carry]. destruct IHForall2 as [Hin Hf].
  destruct carry.
  - destruct Hf as [Hf1 Hf2]. destruct (S y <? x) eqn:E.
    + apply Nat.ltb_lt in E. split; [constructor; auto|]. simpl. nia.
    + apply Nat.ltb_ge in E. split; [constructor; auto; lia|]. simpl. nia.
  - split; [constructor; auto|]. simpl. lia.
Qed.

Lemma succ_tup_tup ns i : 0 < prod ns ->
  succ_tup ns (tup ns i) = (tup ns (S i), S (i mod prod ns) =? prod ns).
Proof.
  intros Hp. pose proof (succ_tup_spec ns (tup ns i) (tup_inb ns i Hp)) as H.
  destruct (succ_tup ns (tup ns i)) as [u carry]. destruct H as [Hin Hf].
  rewrite flat_tup in Hf by auto.
  assert (Hmod : i mod prod ns < prod ns) by (apply Nat.mod_upper_bound; lia).
  assert (HS : tup ns (S i) = tup ns (S (i mod prod ns))).
  { rewrite <- (tup_mod ns (S i)) by auto. rewrite <- (tup_mod ns (S (i mod prod ns))) by auto.
    f_equal. change (S i) with (1 + i). change (S (i mod prod ns)) with (1 + i mod prod ns).
    rewrite Nat.add_mod_idemp_r by lia. auto. }
  destruct carry.
  - destruct Hf as [H1 H2]. rewrite H1, Nat.eqb_refl. f_equal.
    rewrite HS, H1. rewrite <- (tup_mod ns (prod ns)) by auto. rewrite Nat.mod_same by lia.
    rewrite <- H2. rewrite tup_flat; auto.
  - destruct (Nat.eqb_spec (S (i mod prod ns)) (prod ns)).
    + pose proof (flat_lt _ _ Hin). lia.
    + f_equal. rewrite HS, <- Hf. rewrite tup_flat; auto.
Qed.

(** All tuples in row-major order. *)
Definition all_tups (ns : list nat) : list (list nat) := map (tup ns) (seq 0 (prod ns)).

Lemma in_all_tups ns t : In t (all_tups ns) <-> inb ns t.
Proof.
  unfold all_tups. rewrite in_map_iff. split.
  - intros (i & <- & Hi). apply in_seq in Hi. apply tup_inb. lia.
  - intros H. exists (flat ns t). split. apply tup_flat; auto.
    apply in_seq. pose proof (flat_lt _ _ H). lia.
Qed.

Lemma seq_app_eq a n m : seq a (n + m) = seq a n ++ seq (a + n) m.
Proof. apply seq_app. Qed.

Lemma seq_shift_map b s p : map (fun i => b + i) (seq s p) = seq (b + s) p.
Proof.
  revert s; induction p; simpl; intros; auto. f_equal. rewrite IHp. f_equal. lia.
Qed.

(** The familiar recursive enumeration. *)
Lemma all_tups_cons n ns :
  all_tups (n :: ns) = flat_map (fun k => map (cons k) (all_tups ns)) (seq 0 n).
Proof.
  destruct (Nat.eq_dec (prod ns) 0) as [Hz|Hz].
  { unfold all_tups. simpl. rewrite Hz. rewrite Nat.mul_0_r. simpl.
    induction (seq 0 n); simpl; auto. }
  unfold all_tups at 1. simpl prod.
  assert (G : forall m, m <= n -> map (tup (n :: ns)) (seq 0 (m * prod ns)) =
     flat_map (fun k => map (cons k) (all_tups ns)) (seq 0 m)).
  { induction m; intros; [reflexivity|].
    rewrite seq_S. rewrite flat_map_app. replace (S m * prod ns) with (m * prod ns + prod ns) by lia.
    rewrite seq_app, map_app. rewrite IHm by lia. f_equal.
    simpl. rewrite app_nil_r. unfold all_tups. rewrite map_map.
    replace (seq (m * prod ns) (prod ns)) with (map (fun i => m * prod ns + i) (seq 0 (prod ns))).
    2:{ rewrite seq_shift_map. f_equal. lia. }
    rewrite map_map. apply map_ext_in. intros i Hi. apply in_seq in Hi.
    rewrite Nat.add_comm, Nat.div_add by lia. rewrite (Nat.div_small i) by lia. simpl.
    rewrite Nat.mod_small by lia. f_equal. rewrite Nat.add_comm. apply tup_add. lia. }
  apply G. lia.
Qed.

(** ** Removing and inserting a digit *)

Definition rem_at {A} (i : nat) (l : list A) : list A := firstn i l ++ skipn (S i) l.
Definition ins_at {A} (i : nat) (x : A) (l : list A) : list A := firstn i l ++ x :: skipn i l.

Lemma skipn_app_len {A} (a b : list A) : skipn (length a) (a ++ b) = b.
Proof. rewrite skipn_app, skipn_all, Nat.sub_diag. auto. Qed.

Lemma firstn_app_len {A} (a b : list A) : firstn (length a) (a ++ b) = a.
Proof. rewrite firstn_app, firstn_all, Nat.sub_diag. simpl. apply app_nil_r. Qed.

Lemma rem_at_app {A} (a : list A) x b : rem_at (length a) (a ++ x :: b) = a ++ b.
Proof.
  unfold rem_at. rewrite firstn_app_len. f_equal.
  replace (a ++ x :: b) with ((a ++ [x]) ++ b) by (rewrite <- app_assoc; auto).
  replace (S (length a)) with (length (a ++ [x])) by (rewrite app_length; simpl; lia).
  apply skipn_app_len.
Qed.

Lemma ins_at_app {A} (a : list A) x b : ins_at (length a) x (a ++ b) = a ++ x :: b.
Proof.
  unfold ins_at. rewrite firstn_app, firstn_all, Nat.sub_diag. simpl. rewrite app_nil_r.
  rewrite skipn_app, skipn_all, Nat.sub_diag. auto.
Qed.

Lemma rem_ins {A} i (x : A) l : i <= length l -> rem_at i (ins_at i x l) = l.
Proof.
  intros. rewrite <- (firstn_skipn i l).
  assert (E : i = length (firstn i l)) by (rewrite firstn_length; lia).
  rewrite E at 1. rewrite E at 2. rewrite ins_at_app, rem_at_app. auto.
Qed.

Lemma ins_rem {A} i (x : A) l : nth_error l i = Some x -> ins_at i x (rem_at i l) = l.
Proof.
  intros H. apply nth_error_split in H. destruct H as (a & b & -> & <-).
  rewrite rem_at_app, ins_at_app. auto.
Qed.

Lemma length_ins {A} i (x : A) l : length (ins_at i x l) = S (length l).
Proof.
  unfold ins_at. rewrite app_length. simpl. rewrite Nat.add_succ_r. f_equal.
  rewrite <- app_length, firstn_skipn. auto.
Qed.

Lemma length_rem {A} i (l : list A) : i < length l -> length (rem_at i l) = length l - 1.
Proof. intros. unfold rem_at. rewrite app_length, firstn_length, skipn_length. lia. Qed.
