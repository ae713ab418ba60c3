(** The order of the decisions does not depend on the order of map iteration. *)
From Coq Require Import ZArith List Bool Lia Permutation QArith Qcanon.
From Verif Require Import Num GoBase VarModel GoFacts SpecFactor Tuples FactorFacts VEModel SpecVE VEFacts VETopo VEHidden.
Import ListNotations.
Open Scope Z_scope.

Definition same_res (r1 r2 : gores (nat * list bool * list variable)) : Prop :=
  match r1, r2 with
  | Ok (_, v1, l1), Ok (_, v2, l2) => v1 = v2 /\ l1 = l2
  | Err e1, Err e2 => e1 = e2
  | Panic p1, Panic p2 => p1 = p2
  | _, _ => False
  end.

Lemma same_fold {X} (f g : nat * list bool * list variable -> X -> gores (nat * list bool * list variable)) l :
  (forall t1 t2 v r x, In x l -> same_res (f (t1, v, r) x) (g (t2, v, r) x)) ->
  forall t1 t2 v r, same_res (foldM f (t1, v, r) l) (foldM g (t2, v, r) l).
Proof.
  induction l; intros H t1 t2 v r; cbn [foldM]; [simpl; auto|].
  pose proof (H t1 t2 v r a (or_introl eq_refl)) as H1.
  destruct (f (t1, v, r) a) as [[[t1' v1] r1]|e|p], (g (t2, v, r) a) as [[[t2' v2] r2]|e'|p']; simpl in H1; try tauto; cbn [gbind]; try (simpl; auto; fail).
  destruct H1 as [-> ->]. apply IHl. intros; apply H; simpl; auto.
Qed.

Lemma filter_key_perm (deps deps' : depmap) x : NoDup (map (fun kv => v_id (fst kv)) deps) -> Permutation deps deps' ->
  filter (fun kv => v_id (fst kv) =? x) deps = filter (fun kv => v_id (fst kv) =? x) deps'.
Proof.
  intros Hn Hp. apply (Permutation_filter (fun kv => v_id (fst kv) =? x)) in Hp.
  assert (Hle : (length (filter (fun kv : variable * list variable => Z.eqb (v_id (fst kv)) x) deps) <= 1)%nat).
  { clear Hp. assert (Hnil : forall l : depmap, ~ In x (map (fun kv => v_id (fst kv)) l) -> filter (fun kv => v_id (fst kv) =? x) l = []).
    { clear. induction l as [|kv l]; simpl; intros H; auto. destruct (Z.eqb_spec (v_id (fst kv)) x); [tauto|]. apply IHl. tauto. }
    clear deps'. induction deps as [|kv deps IH]; simpl; auto. inversion Hn; subst. destruct (Z.eqb_spec (v_id (fst kv)) x); auto.
    simpl. rewrite Hnil; auto. congruence. }
  destruct (filter _ deps) as [|a [|b r]].
  - symmetry. apply Permutation_nil. auto.
  - symmetry. apply Permutation_length_1_inv. auto.
  - simpl in Hle. lia.
Qed.

Lemma rec_same sc1 sc2 dec deps : NoDup (map (fun kv => v_id (fst kv)) deps) -> forall fuel i t1 t2 v r,
  same_res (sort_topological_rec sc1 fuel dec i deps (t1, v, r)) (sort_topological_rec sc2 fuel dec i deps (t2, v, r)).
Proof.
  intros Hn. induction fuel; intros i t1 t2 v r; cbn [sort_topological_rec]; [simpl; auto|].
  destruct (sget v i) as [b|e|p]; cbn [gbind]; try (simpl; auto; fail). destruct b; [simpl; auto|].
  destruct (sset v i true) as [v'|e|p]; cbn [gbind]; try (simpl; auto; fail).
  destruct (sget dec i) as [d|e|p]; cbn [gbind]; try (simpl; auto; fail).
  set (body := fun sc st (kv : variable * list variable) =>
     foldM (fun st p => if nodeType_eqb (v_type p) Decision
            then sort_topological_rec sc fuel dec (index_func (var_eqb p) dec) deps st else Ok st) st (snd kv)).
  assert (Hf : forall sc st l, foldM (fun st '(k, vars) => if v_id k =? v_id d then
          foldM (fun st p => if nodeType_eqb (v_type p) Decision
            then sort_topological_rec sc fuel dec (index_func (var_eqb p) dec) deps st
            else Ok st) st vars else Ok st) st l =
     foldM (body sc) st (filter (fun kv => v_id (fst kv) =? v_id d) l)).
  { intros sc st l. rewrite <- foldM_filter. apply foldM_ext. intros st' [k vars] _. reflexivity. }
  rewrite !Hf.
  rewrite <- (filter_key_perm _ _ (v_id d) Hn (shuffle_perm sc1 t1 _ deps)).
  rewrite <- (filter_key_perm _ _ (v_id d) Hn (shuffle_perm sc2 t2 _ deps)).
  match goal with |- same_res (gbind ?x _) (gbind ?y _) => assert (H : same_res x y) end.
  { apply same_fold. intros t1' t2' v1 r1 [k vars] _. unfold body. apply same_fold. intros.
    destruct (nodeType_eqb (v_type x) Decision). apply IHfuel. simpl; auto. }
  destruct (foldM (body sc1) _ _) as [[[t1' v1] r1]|e|p], (foldM (body sc2) _ _) as [[[t2' v2] r2]|e'|p']; simpl in H; try tauto; cbn [gbind]; auto.
  destruct H as [-> ->]. simpl. auto.
Qed.

(** Two calls of getDecisions on the same variables and dependencies agree. *)
Lemma get_decisions_same {A B} sc1 sc2 (s1 s1' : vestate A) (s2 s2' : vestate B) r1 r2 :
  vs_vars (ve_vs s1) = vs_vars (ve_vs s2) -> ve_deps s1 = ve_deps s2 -> NoDup (map (fun kv => v_id (fst kv)) (ve_deps s1)) ->
  get_decisions sc1 s1 = Ok (s1', r1) -> get_decisions sc2 s2 = Ok (s2', r2) -> r1 = r2.
Proof.
  unfold get_decisions. intros Ev Ed Hn. rewrite <- Ev, <- Ed. unfold sort_topological. set (dec := filter _ _).
  match goal with |- context [foldM ?f (ve_tick s1, ?vv, ?rr) ?l] => match goal with |- context [foldM ?g (ve_tick s2, _, _) _] =>
    pose proof (same_fold f g l (fun t1 t2 v r x _ => rec_same sc1 sc2 dec (ve_deps s1) Hn _ x t1 t2 v r) (ve_tick s1) (ve_tick s2) vv rr) as H end end.
  destruct (foldM _ (ve_tick s1, _, _) _) as [[[t1' v1] l1]|e|p], (foldM _ (ve_tick s2, _, _) _) as [[[t2' v2] l2]|e'|p']; simpl in H; try tauto;
    cbn [gbind]; try discriminate.
  destruct H as [_ ->]. intros E1 E2. inversion E1. inversion E2. congruence.
Qed.
