(** Facts about the Go base operations. *)
From Coq Require Import ZArith List Bool Lia Arith PeanoNat ZifyBool ZifyNat Permutation.
From Verif Require Import GoBase.
Import ListNotations.
Open Scope Z_scope.

Definition Zs (l : list nat) : list Z := map Z.of_nat l.

Lemma Zs_length l : length (Zs l) = length l.
Proof. apply map_length. Qed.

Lemma Zs_inj a b : Zs a = Zs b -> a = b.
Proof.
  revert b; induction a; destruct b; simpl; intros H; try discriminate; auto.
  inversion H. f_equal; auto. lia.
Qed.

Lemma Zs_app a b : Zs (a ++ b) = Zs a ++ Zs b.
Proof. apply map_app. Qed.

Lemma zlen_nonneg {A} (l : list A) : 0 <= zlen l.
Proof. unfold zlen. lia. Qed.

Lemma gbind_ok {A B} (m : gores A) (k : A -> gores B) b :
  gbind m k = Ok b -> exists a, m = Ok a /\ k a = Ok b.
Proof. destruct m; simpl; intros; try discriminate. eauto. Qed.

Lemma foldM_inv {S X} (I : nat -> S -> Prop) (f : S -> X -> gores S) l : forall s0,
  I 0%nat s0 ->
  (forall i s x, nth_error l i = Some x -> I i s -> exists s', f s x = Ok s' /\ I (Datatypes.S i) s') ->
  exists s', foldM f s0 l = Ok s' /\ I (length l) s'.
Proof.
  revert I. induction l; intros I s0 H0 Hs; simpl.
  - eauto.
  - destruct (Hs 0%nat s0 a eq_refl H0) as (s1 & E & H1). rewrite E. simpl.
    apply (IHl (fun i => I (Datatypes.S i)) s1 H1).
    intros. apply (Hs (Datatypes.S i)); auto.
Qed.

Lemma foldM_app {S X} (f : S -> X -> gores S) a b s :
  foldM f s (a ++ b) = let! s' := foldM f s a in foldM f s' b.
Proof.
  revert s; induction a; simpl; intros; auto.
  destruct (f s a); simpl; auto.
Qed.

Lemma foldM_ok_fold_left {S X} (f : S -> X -> gores S) (g : S -> X -> S) l : forall s,
  (forall s x, In x l -> f s x = Ok (g s x)) ->
  foldM f s l = Ok (fold_left g l s).
Proof.
  induction l; simpl; intros; auto. rewrite H by auto. simpl. apply IHl. auto.
Qed.

Lemma foldM_ext {S X} (f g : S -> X -> gores S) l : forall s,
  (forall s x, In x l -> f s x = g s x) -> foldM f s l = foldM g s l.
Proof.
  induction l; simpl; intros; auto. rewrite H by auto. destruct (g s a); simpl; auto.
Qed.

Lemma mapM_ok {X Y} (f : X -> gores Y) (g : X -> Y) l :
  (forall x, In x l -> f x = Ok (g x)) -> mapM f l = Ok (map g l).
Proof.
  induction l; simpl; intros; auto. rewrite H by auto. simpl. rewrite IHl; auto.
Qed.

Lemma mapM_length {X Y} (f : X -> gores Y) l r : mapM f l = Ok r -> length r = length l.
Proof.
  revert r; induction l; simpl; intros r H.
  - inversion H; auto.
  - apply gbind_ok in H. destruct H as (y & _ & H). apply gbind_ok in H. destruct H as (ys & H1 & H2).
    inversion H2; subst. simpl. f_equal. auto.
Qed.

Lemma zrange_length lo hi : length (zrange lo hi) = Z.to_nat (hi - lo).
Proof. unfold zrange. rewrite map_length, seq_length. auto. Qed.

Lemma zrange_nth lo hi i : (i < Z.to_nat (hi - lo))%nat ->
  nth_error (zrange lo hi) i = Some (lo + Z.of_nat i).
Proof.
  intros. unfold zrange.
  rewrite nth_error_map.
  rewrite (nth_error_nth' _ 0%nat) by (rewrite seq_length; auto).
  rewrite seq_nth by auto. simpl. auto.
Qed.

Lemma zrange_nth_inv lo hi i x : nth_error (zrange lo hi) i = Some x ->
  x = lo + Z.of_nat i /\ (i < Z.to_nat (hi - lo))%nat.
Proof.
  intros H. assert (Hi : (i < Z.to_nat (hi - lo))%nat).
  { rewrite <- (zrange_length lo hi). apply nth_error_Some. congruence. }
  rewrite zrange_nth in H by auto. inversion H. auto.
Qed.

Lemma zrange_0 n : zrange 0 (Z.of_nat n) = Zs (seq 0 n).
Proof.
  unfold zrange, Zs. rewrite Z.sub_0_r, Nat2Z.id. apply map_ext. intros; lia.
Qed.

Lemma in_zrange lo hi x : In x (zrange lo hi) <-> lo <= x < hi.
Proof.
  unfold zrange. rewrite in_map_iff. split.
  - intros (k & <- & H). apply in_seq in H. lia.
  - intros. exists (Z.to_nat (x - lo)). split; [lia|]. apply in_seq. lia.
Qed.

Lemma sget_nat {A} (l : list A) i :
  sget l (Z.of_nat i) = match nth_error l i with Some x => Ok x | None => Panic PIndex end.
Proof.
  unfold sget. destruct (Z.of_nat i <? 0) eqn:E; [lia|]. rewrite Nat2Z.id. auto.
Qed.

Lemma sget_ok {A} (l : list A) i x : nth_error l i = Some x -> sget l (Z.of_nat i) = Ok x.
Proof. intros H. rewrite sget_nat, H. auto. Qed.

Lemma sget_inv {A} (l : list A) i x : sget l i = Ok x -> 0 <= i < zlen l /\ nth_error l (Z.to_nat i) = Some x.
Proof.
  unfold sget. destruct (i <? 0) eqn:E; [discriminate|].
  destruct (nth_error l (Z.to_nat i)) eqn:E2; [|discriminate].
  intros H; inversion H; subst. split; auto.
  assert (Z.to_nat i < length l)%nat by (apply nth_error_Some; congruence). unfold zlen. lia.
Qed.

Lemma upd_nth_length {A} (l : list A) n x : length (upd_nth l n x) = length l.
Proof. revert n; induction l; destruct n; simpl; auto. Qed.

Lemma upd_nth_same {A} (l : list A) n x : (n < length l)%nat -> nth_error (upd_nth l n x) n = Some x.
Proof. revert n; induction l; destruct n; simpl; intros; try lia; auto. apply IHl. lia. Qed.

Lemma upd_nth_other {A} (l : list A) n m x : n <> m -> nth_error (upd_nth l n x) m = nth_error l m.
Proof.
  revert n m; induction l; destruct n, m; simpl; intros; auto; try congruence.
Qed.

Lemma upd_nth_spec {A} (l : list A) n m x :
  nth_error (upd_nth l n x) m = if (n =? m)%nat && (n <? length l)%nat then Some x else nth_error l m.
Proof.
  destruct (Nat.eqb_spec n m); subst; simpl.
  - destruct (Nat.ltb_spec m (length l)).
    + apply upd_nth_same; auto.
    + assert (nth_error l m = None) by (apply nth_error_None; auto).
      rewrite H0. apply nth_error_None. rewrite upd_nth_length. auto.
  - apply upd_nth_other; auto.
Qed.

Lemma sset_ok {A} (l : list A) i x : (i < length l)%nat -> sset l (Z.of_nat i) x = Ok (upd_nth l i x).
Proof.
  intros. unfold sset, zlen.
  destruct ((Z.of_nat i <? 0) || (Z.of_nat (length l) <=? Z.of_nat i)) eqn:E; [lia|].
  rewrite Nat2Z.id. auto.
Qed.

Lemma sset_inv {A} (l : list A) i x l' : sset l i x = Ok l' ->
  0 <= i < zlen l /\ l' = upd_nth l (Z.to_nat i) x.
Proof.
  unfold sset. destruct ((i <? 0) || (zlen l <=? i)) eqn:E; [discriminate|].
  intros H; inversion H; subst. split; auto. lia.
Qed.

Lemma nth_error_ext {A} (l l' : list A) : (forall i, nth_error l i = nth_error l' i) -> l = l'.
Proof.
  revert l'; induction l; destruct l'; intros H; auto.
  - specialize (H 0%nat). discriminate.
  - specialize (H 0%nat). discriminate.
  - f_equal.
    + specialize (H 0%nat). simpl in H. congruence.
    + apply IHl. intros i. apply (H (S i)).
Qed.

Lemma nth_error_repeat' {A} (x : A) n i : nth_error (repeat x n) i = if (i <? n)%nat then Some x else None.
Proof.
  revert i; induction n; destruct i; simpl; auto. rewrite IHn.
  destruct (Nat.ltb_spec i n), (Nat.ltb_spec (S i) (S n)); auto; lia.
Qed.

Lemma index_func_from_spec {A} (p : A -> bool) l : forall i,
  (index_func_from p l i = -1 /\ forall x, In x l -> p x = false) \/
  (exists k x, index_func_from p l i = i + Z.of_nat k /\ nth_error l k = Some x /\ p x = true /\
     forall j y, (j < k)%nat -> nth_error l j = Some y -> p y = false).
Proof.
  induction l; intros i; simpl.
  - left. split; auto. intros x [].
  - destruct (p a) eqn:E.
    + right. exists 0%nat, a. repeat split; auto; try lia.
    + destruct (IHl (i + 1)) as [[H1 H2]|(k & x & H1 & H2 & H3 & H4)].
      * left. split; auto. intros x [->|H]; auto.
      * right. exists (S k), x. rewrite H1. repeat split; auto; try lia.
        intros [|j] y Hj Hn; simpl in Hn; [congruence|]. apply (H4 j); auto. lia.
Qed.

Lemma index_func_spec {A} (p : A -> bool) l :
  (index_func p l = -1 /\ forall x, In x l -> p x = false) \/
  (exists k x, index_func p l = Z.of_nat k /\ nth_error l k = Some x /\ p x = true /\
     forall j y, (j < k)%nat -> nth_error l j = Some y -> p y = false).
Proof.
  destruct (index_func_from_spec p l 0) as [H|H]; [left|right]; auto.
Qed.

Lemma index_func_neg {A} (p : A -> bool) l : index_func p l < 0 <-> (forall x, In x l -> p x = false).
Proof.
  destruct (index_func_spec p l) as [[H1 H2]|(k & x & H1 & H2 & H3 & H4)].
  - split; intros; auto. lia.
  - split; intros H; [lia|]. exfalso. apply nth_error_In in H2. apply H in H2. congruence.
Qed.

(** ** Association lists *)
Section Maps.
Context {K V : Type} (eqb : K -> K -> bool) (eqb_spec : forall a b, eqb a b = true <-> a = b).

Lemma mget_mset_same (m : list (K * V)) k v : mget eqb (mset eqb m k v) k = Some v.
Proof.
  assert (R : eqb k k = true) by (apply eqb_spec; auto).
  induction m as [|[k' v'] m]; simpl.
  - rewrite R; auto.
  - destruct (eqb k k') eqn:E; simpl; rewrite E; auto.
Qed.

Lemma mget_mset_other (m : list (K * V)) k k' v : k <> k' -> mget eqb (mset eqb m k v) k' = mget eqb m k'.
Proof.
  intros Hne. induction m as [|[k1 v1] m]; simpl.
  - destruct (eqb k' k) eqn:E; auto. apply eqb_spec in E. congruence.
  - destruct (eqb k k1) eqn:E; simpl.
    + apply eqb_spec in E; subst. destruct (eqb k' k1) eqn:E'; auto. apply eqb_spec in E'. congruence.
    + destruct (eqb k' k1); auto.
Qed.

Lemma mget_In (m : list (K * V)) k v : mget eqb m k = Some v -> In (k, v) m.
Proof.
  induction m as [|[k1 v1] m]; simpl; [discriminate|].
  destruct (eqb k k1) eqn:E; intros H.
  - inversion H; subst. apply eqb_spec in E. subst. auto.
  - auto.
Qed.

Lemma In_mget (m : list (K * V)) k v : NoDup (map fst m) -> In (k, v) m -> mget eqb m k = Some v.
Proof.
  induction m as [|[k1 v1] m]; simpl; intros Hnd Hin; [tauto|].
  inversion Hnd; subst. destruct Hin as [H|H].
  - inversion H; subst. rewrite (proj2 (eqb_spec k k)); auto.
  - destruct (eqb k k1) eqn:E; auto. apply eqb_spec in E; subst.
    exfalso. apply H1. apply in_map_iff. exists (k1, v). auto.
Qed.

Lemma mget_None (m : list (K * V)) k : mget eqb m k = None <-> ~ In k (map fst m).
Proof.
  induction m as [|[k1 v1] m]; simpl; [tauto|].
  destruct (eqb k k1) eqn:E.
  - apply eqb_spec in E; subst. split; [discriminate|]. tauto.
  - rewrite IHm. split; intros H; [|tauto]. intros [->|H1]; auto.
    rewrite (proj2 (eqb_spec k k)) in E; [discriminate|auto].
Qed.

Lemma mset_keys (m : list (K * V)) k v : forall x, In x (map fst (mset eqb m k v)) <-> x = k \/ In x (map fst m).
Proof.
  induction m as [|[k1 v1] m]; simpl; intros x.
  - intuition.
  - destruct (eqb k k1) eqn:E; simpl.
    + apply eqb_spec in E; subst. intuition.
    + rewrite IHm. intuition.
Qed.

Lemma mset_NoDup (m : list (K * V)) k v : NoDup (map fst m) -> NoDup (map fst (mset eqb m k v)).
Proof.
  induction m as [|[k1 v1] m]; simpl; intros H.
  - constructor; auto.
  - inversion H; subst. destruct (eqb k k1) eqn:E; simpl.
    + constructor; auto.
    + constructor; auto. rewrite mset_keys. intros [->|H1]; auto.
      rewrite (proj2 (eqb_spec k k)) in E; [discriminate|auto].
Qed.

Lemma mset_new (m : list (K * V)) k v : ~ In k (map fst m) -> mset eqb m k v = m ++ [(k, v)].
Proof.
  induction m as [|[k1 v1] m]; simpl; intros H; auto.
  destruct (eqb k k1) eqn:E.
  - apply eqb_spec in E; subst. tauto.
  - f_equal. apply IHm. tauto.
Qed.

Lemma mdel_In (m : list (K * V)) k e : In e (mdel eqb m k) <-> In e m /\ fst e <> k.
Proof.
  unfold mdel. rewrite filter_In. split; intros [H1 H2]; split; auto.
  - intros Ek. rewrite (proj2 (eqb_spec _ _) (eq_sym Ek)) in H2. discriminate.
  - destruct (eqb k (fst e)) eqn:E; auto. apply eqb_spec in E. congruence.
Qed.
End Maps.

Lemma NoDup_filter_map {A B} (f : A -> B) (p : A -> bool) (l : list A) :
  NoDup (map f l) -> NoDup (map f (filter p l)).
Proof.
  induction l; simpl; intros H; auto. inversion H; subst.
  destruct (p a); simpl; auto. constructor; auto.
  intros Hin. apply H2. apply in_map_iff in Hin. destruct Hin as (x & E & Hx).
  apply filter_In in Hx. rewrite <- E. apply in_map. tauto.
Qed.

Lemma nth_error_firstn' {A} (l : list A) n i :
  nth_error (firstn n l) i = if (i <? n)%nat then nth_error l i else None.
Proof.
  revert n i; induction l; destruct n, i; simpl; auto.
  - destruct (_ <? _)%nat; auto.
  - rewrite IHl. destruct (Nat.ltb_spec i n), (Nat.ltb_spec (S i) (S n)); auto; lia.
Qed.

Lemma nth_error_skipn' {A} (l : list A) n i : nth_error (skipn n l) i = nth_error l (n + i).
Proof.
  revert n i; induction l; destruct n; simpl; intros; auto.
  destruct i; auto.
Qed.

Lemma Forall2_imp {S T} (P Q : S -> T -> Prop) l1 l2 :
  (forall x y, P x y -> Q x y) -> Forall2 P l1 l2 -> Forall2 Q l1 l2.
Proof. intros H; induction 1; constructor; auto. Qed.
