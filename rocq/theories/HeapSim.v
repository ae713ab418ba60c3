(** Computations with arrays in memory against computations with values. *)
From Coq Require Import ZArith List Bool String Lia.
From Verif Require Import Num GoBase VarModel HeapVarModel.
Import ListNotations.
Open Scope Z_scope.

Section Sim.
Context {A : Type} {N : NumOps A}.
Notation heap := (heap A).
Notation act := (act A).

(** All arrays of [b] are in [h], with the same contents. *)
Definition old (b h : heap) : Prop := exists t, h = b ++ t.

Lemma old_refl b : old b b.
Proof. exists []. symmetry. apply app_nil_r. Qed.
Lemma old_trans a b c : old a b -> old b c -> old a c.
Proof. intros [t ->] [u ->]. exists (t ++ u). symmetry. apply app_assoc. Qed.
Lemma old_app b t : old b (b ++ t).
Proof. now exists t. Qed.
Lemma old_nth b h a d : old b h -> nth_error b a = Some d -> nth_error h a = Some d.
Proof. intros [t ->] H. rewrite nth_error_app1; [exact H|]. apply nth_error_Some. congruence. Qed.

(** Started in [h], the computation [m] ends like [r], with results related by [R], and leaves
    the arrays of [b] alone. *)
Definition sim {X Y} (b h : heap) (m : act X) (r : gores Y) (R : heap -> X -> Y -> Prop) : Prop :=
  let '(h', x) := m h in
  old b h' /\
  match x, r with
  | Ok x, Ok y => R h' x y
  | Err e, Err e' => e = e'
  | Panic p, Panic p' => p = p'
  | _, _ => False
  end.

Lemma sim_bind {X Y X' Y'} b h (m : act X) (r : gores Y) (R : heap -> X -> Y -> Prop)
  (k : X -> act X') (k' : Y -> gores Y') (R' : heap -> X' -> Y' -> Prop) :
  sim b h m r R -> (forall h' x y, old b h' -> R h' x y -> sim b h' (k x) (k' y) R') ->
  sim b h (bind m k) (gbind r k') R'.
Proof.
  unfold sim, bind, gbind. destruct (m h) as [h' [x|e|p]]; destruct r; intros [Ho H] K; try tauto; try (split; assumption).
  now apply K.
Qed.

Lemma sim_left {X Y X'} b h (m : act X) (k : X -> act X') (r : gores Y) h' x R :
  m h = (h', Ok x) -> sim b h' (k x) r R -> sim b h (bind m k) r R.
Proof. unfold sim, bind. intros ->. auto. Qed.

Lemma sim_right {X Y Y'} b h (m : act X) (r : gores Y) (k : Y -> gores Y') (R : heap -> X -> Y -> Prop) (R' : heap -> X -> Y' -> Prop) :
  sim b h m r R -> (forall h' x y, R h' x y -> exists y', k y = Ok y' /\ R' h' x y') -> sim b h m (gbind r k) R'.
Proof.
  unfold sim, gbind. destruct (m h) as [h' [x|e|p]]; destruct r; intros [Ho H] K; try tauto; try (split; assumption).
  split; auto. destruct (K _ _ _ H) as (y' & -> & HR). exact HR.
Qed.

Lemma sim_ret {X Y} b h (x : X) (y : Y) (R : heap -> X -> Y -> Prop) :
  old b h -> R h x y -> sim b h (ret x) (Ok y) R.
Proof. now unfold sim, ret. Qed.

Lemma sim_lift {X} b h (r : gores X) : old b h -> sim b h (lift r) r (fun h' x y => h' = h /\ x = y).
Proof. unfold sim, lift. intros H. destruct r; auto. Qed.

Lemma sim_fail_p {X Y} b h p (R : heap -> X -> Y -> Prop) : old b h -> sim b h (lift (Panic p)) (Panic p) R.
Proof. now unfold sim, lift. Qed.
Lemma sim_fail_e {X Y} b h e (R : heap -> X -> Y -> Prop) : old b h -> sim b h (lift (Err e)) (Err e) R.
Proof. now unfold sim, lift. Qed.

Lemma sim_mono {X Y} b b' h (m : act X) (r : gores Y) (R R' : heap -> X -> Y -> Prop) :
  old b b' -> (forall h' x y, old b' h' -> R h' x y -> R' h' x y) -> sim b' h m r R -> sim b h m r R'.
Proof.
  unfold sim. destruct (m h) as [h' x]. intros Hb HR [Ho H].
  split; [eapply old_trans; eassumption|]. destruct x, r; auto.
Qed.

Lemma sim_fold {S T X Y} (E : X -> Y -> Prop) (P : heap -> S -> T -> Prop) b (f : S -> X -> act S) (g : T -> Y -> gores T) :
  (forall h s t x y, old b h -> P h s t -> E x y -> sim b h (f s x) (g t y) P) ->
  forall l l', Forall2 E l l' -> forall h s t, old b h -> P h s t -> sim b h (foldA f s l) (foldM g t l') P.
Proof.
  intros Hf l l' HE. induction HE as [|x y l l' Hxy HE IH]; intros h s t Ho HP; cbn [foldA foldM].
  - now apply sim_ret.
  - eapply sim_bind; [now apply Hf|]. intros h' s' t' Ho' HP'. now apply IH.
Qed.

Lemma forall2_same {X} (l : list X) : Forall2 eq l l.
Proof. induction l; auto. Qed.

Lemma sim_fold_eq {S T X} (P : heap -> S -> T -> Prop) b (f : S -> X -> act S) (g : T -> X -> gores T) l :
  (forall h s t x, old b h -> P h s t -> sim b h (f s x) (g t x) P) ->
  forall h s t, old b h -> P h s t -> sim b h (foldA f s l) (foldM g t l) P.
Proof. intros Hf. apply (sim_fold eq); [|apply forall2_same]. intros h s t x y Ho HP <-. now apply Hf. Qed.

(** Elements of arrays *)
Lemma sim_get b h a d i : old b h -> nth_error h a = Some d ->
  sim b h (get_elem a i) (sget d i) (fun h' x y => h' = h /\ x = y).
Proof.
  intros Ho E. unfold sim, get_elem, load, bind, lift. rewrite E. destruct (sget d i); auto.
Qed.

Lemma get_ok (h : heap) a d i x : nth_error h a = Some d -> sget d i = Ok x -> get_elem a i h = (h, Ok x).
Proof. intros E G. unfold get_elem, load, bind, lift. now rewrite E, G. Qed.

Lemma len_ok (h : heap) a d : nth_error h a = Some d -> len_at a h = (h, Ok (zlen d)).
Proof. intros E. unfold len_at, load, bind, ret. now rewrite E. Qed.

Lemma copy_ok (h : heap) a d : nth_error h a = Some d -> copy_of a h = (h ++ [d], Ok (List.length h)).
Proof. intros E. unfold copy_of, load, bind, alloc. now rewrite E. Qed.

Lemma nth_last {T} (b : list T) d : nth_error (b ++ [d]) (List.length b) = Some d.
Proof. rewrite nth_error_app2, Nat.sub_diag by lia. reflexivity. Qed.

Lemma upd_last {T} (b : list T) d d' : upd_nth (b ++ [d]) (List.length b) d' = b ++ [d'].
Proof. induction b as [|x b IH]; cbn [upd_nth List.app List.length]; [reflexivity|now rewrite IH]. Qed.

Lemma sim_put (b : heap) d i x : sim b (b ++ [d]) (put_elem (List.length b) i x) (sset d i x) (fun h' _ d' => h' = b ++ [d']).
Proof.
  unfold sim, put_elem, load, bind, lift. rewrite nth_last.
  destruct (sset d i x) as [d'|e|p]; try (split; [apply old_app|reflexivity]).
  split; [|apply upd_last]. rewrite upd_last. apply old_app.
Qed.

(** The positions of an array against its elements *)
Lemma zrange_of_nat n : zrange 0 (Z.of_nat n) = map Z.of_nat (seq 0 n).
Proof.
  unfold zrange. rewrite Z.sub_0_r, Nat2Z.id. apply map_ext. intros k. lia.
Qed.

Lemma positions_elements (d : list A) : Forall2 (fun i x => sget d i = Ok x) (zrange 0 (zlen d)) d.
Proof.
  unfold zlen. rewrite zrange_of_nat.
  enough (forall post pre, Forall2 (fun i x => sget (pre ++ post) i = Ok x) (map Z.of_nat (seq (List.length pre) (List.length post))) post) as H
    by apply (H d []).
  induction post as [|x post IH]; intros pre; cbn [List.length seq map]; constructor.
  - unfold sget. destruct (Z.ltb_spec (Z.of_nat (List.length pre)) 0); [lia|].
    rewrite Nat2Z.id, nth_error_app2, Nat.sub_diag by lia. reflexivity.
  - specialize (IH (pre ++ [x])). rewrite <- app_assoc in IH. rewrite app_length, Nat.add_1_r in IH. exact IH.
Qed.

(** Adding up an array *)
Lemma loop_sum (h : heap) a d : nth_error h a = Some d -> forall s,
  foldA (fun sum i => do! x := get_elem a i in ret (nadd sum x)) s (zrange 0 (zlen d)) h = (h, Ok (fold_left nadd d s)).
Proof.
  intros E.
  enough (forall l d', Forall2 (fun i x => sget d i = Ok x) l d' -> forall s,
    foldA (fun sum i => do! x := get_elem a i in ret (nadd sum x)) s l h = (h, Ok (fold_left nadd d' s))) as H
    by apply H, positions_elements.
  intros l d' P. induction P as [|i x l d' G P IH]; intros s; cbn [foldA fold_left]; [reflexivity|].
  unfold bind at 1. unfold bind at 1. rewrite (get_ok _ _ _ _ _ E G). unfold ret at 1. apply IH.
Qed.

(** Changing all elements of the last array *)
Lemma loop_map (b : heap) (g : A -> A) d :
  foldA (fun _ i => do! x := get_elem (List.length b) i in put_elem (List.length b) i (g x)) tt (zrange 0 (zlen d)) (b ++ [d])
  = (b ++ [map g d], Ok tt).
Proof.
  unfold zlen. rewrite zrange_of_nat.
  enough (forall post pre, foldA (fun _ i => do! x := get_elem (List.length b) i in put_elem (List.length b) i (g x)) tt
      (map Z.of_nat (seq (List.length pre) (List.length post))) (b ++ [pre ++ post]) = (b ++ [pre ++ map g post], Ok tt)) as H
    by apply (H d []).
  induction post as [|x post IH]; intros pre; cbn [List.length seq map foldA].
  - reflexivity.
  - assert (G : sget (pre ++ x :: post) (Z.of_nat (List.length pre)) = Ok x).
    { unfold sget. destruct (Z.ltb_spec (Z.of_nat (List.length pre)) 0); [lia|]. rewrite Nat2Z.id, nth_error_app2, Nat.sub_diag by lia. reflexivity. }
    assert (U : upd_nth (pre ++ x :: post) (List.length pre) (g x) = pre ++ g x :: post).
    { clear. induction pre as [|y pre IH]; cbn [List.app List.length upd_nth]; [reflexivity|now rewrite IH]. }
    unfold bind at 1. unfold bind at 1. rewrite (get_ok _ _ _ _ _ (nth_last b _) G).
    unfold put_elem, load, bind at 1, lift. rewrite nth_last.
    unfold bind, sset. destruct (Z.ltb_spec (Z.of_nat (List.length pre)) 0); [lia|].
    destruct (Z.leb_spec (zlen (pre ++ x :: post)) (Z.of_nat (List.length pre))) as [L|L].
    { unfold zlen in L. rewrite app_length in L. cbn [List.length] in L. lia. }
    cbn [orb]. rewrite Nat2Z.id, U, upd_last.
    specialize (IH (pre ++ [g x])). rewrite <- !app_assoc in IH. rewrite app_length, Nat.add_1_r in IH. exact IH.
Qed.

(** ** Factors *)

(** The factor in memory [f] has the value [g]. *)
Definition view (h : heap) (f : factor nat) (g : factor A) : Prop :=
  f_id g = f_id f /\ f_vars g = f_vars f /\ exists a, f_data f = ref a /\ nth_error h a = Some (f_data g).

Lemma view_old b h f g : old b h -> view b f g -> view h f g.
Proof. intros Ho (Hi & Hv & a & Ea & Ed). repeat split; auto. exists a. split; auto. eapply old_nth; eauto. Qed.

(** The result of an operation on factors: the heap has grown by the array of the factor. *)
Definition made (b h : heap) (x : vstate * factor nat) (y : vstate * factor A) : Prop :=
  fst x = fst y /\ f_id (snd y) = f_id (snd x) /\ f_vars (snd y) = f_vars (snd x) /\
  f_data (snd x) = ref (List.length b) /\ h = b ++ [f_data (snd y)].

Lemma made_view b h x y : made b h x y -> view h (snd x) (snd y).
Proof. intros (_ & Hi & Hv & Ha & ->). repeat split; auto. exists (List.length b). split; auto. apply nth_last. Qed.

Lemma sim_create_nil b s vars : sim b b (h_create_factor s vars None) (create_factor s vars None) (fun h x y => made b h x y /\ f_vars (snd x) = vars).
Proof.
  unfold h_create_factor, create_factor. eapply sim_bind with (R := fun h a d => a = List.length b /\ h = b ++ [d]).
  - unfold sim, bind, lift, alloc. destruct (smake (vars_rows vars) n0) as [d|e|p]; (split; [apply old_app || apply old_refl|auto]).
  - intros h a d Ho (-> & ->). apply sim_ret; auto. unfold made. cbn. auto 10.
Qed.

Lemma sim_create_copy (b : heap) a d s vars : nth_error b a = Some d ->
  sim b b (do! a' := copy_of a in h_create_factor s vars (Some (ref a'))) (create_factor s vars (Some d)) (made b).
Proof.
  intros E. eapply sim_left; [apply copy_ok, E|]. unfold h_create_factor, create_factor, ref, addr. cbn [hd].
  eapply sim_bind with (R := fun h a' d' => a' = List.length b /\ h = b ++ [d'] /\ d' = d).
  - unfold sim, bind. rewrite (len_ok _ _ _ (nth_last b d)). destruct (negb (zlen d =? vars_rows vars)); unfold lift, ret; (split; [apply old_app|auto]).
  - intros h a' d' Ho (-> & -> & ->). apply sim_ret; [apply old_app|]. unfold made. cbn. auto.
Qed.

Lemma sim_create_ref b (h : heap) a d s vars : old b h -> nth_error h a = Some d ->
  sim b h (h_create_factor s vars (Some (ref a))) (create_factor s vars (Some d))
    (fun h' x y => h' = h /\ fst x = fst y /\ view h (snd x) (snd y)).
Proof.
  intros Ho E. unfold h_create_factor, create_factor, ref, addr. cbn [hd].
  eapply sim_bind with (R := fun h' a' d' => a' = a /\ h' = h /\ d' = d).
  - unfold sim, bind. rewrite (len_ok _ _ _ E). destruct (negb (zlen d =? vars_rows vars)); unfold lift, ret; auto.
  - intros h' a' d' Ho' (-> & -> & ->). apply sim_ret; [auto|]. unfold view. cbn. repeat split; auto. exists a. auto.
Qed.

Lemma sim_h_get b h f g t : old b h -> view h f g -> sim b h (h_get f t) (f_get g t) (fun h' x y => h' = h /\ x = y).
Proof.
  intros Ho (Hi & Hv & a & Ea & Ed). unfold h_get, f_get, f_index. rewrite Hv, Ea. unfold ref, addr. cbn [hd].
  eapply sim_bind; [apply sim_lift, Ho|]. intros h' i i' Ho' (-> & ->). now apply sim_get.
Qed.

Lemma sim_h_set (b : heap) f g d t x : f_vars g = f_vars f -> f_data f = ref (List.length b) -> f_data g = d ->
  sim b (b ++ [d]) (h_set f t x) (f_set g t x) (fun h' _ g' => f_id g' = f_id g /\ f_vars g' = f_vars g /\ h' = b ++ [f_data g']).
Proof.
  intros Hv Ea Ed. unfold h_set, f_set, f_index. rewrite Hv, Ea, Ed. unfold ref, addr. cbn [hd].
  eapply sim_bind; [apply sim_lift, old_app|]. intros h' i i' Ho' (-> & ->).
  eapply sim_right; [apply sim_put|]. intros h' u d' ->. eexists. split; [reflexivity|]. cbn. auto.
Qed.

End Sim.
