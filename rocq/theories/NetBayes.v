(** Answers of several calls fit together. *)
From Coq Require Import ZArith List Bool String Lia Permutation QArith Qcanon.
From Verif Require Import Num GoBase VarModel GoFacts SpecFactor XnumFacts VEModel SpecVE NetModel SpecNet NetVars NetFactors NetSums NetQuery NetMass NetCor
  SpecAnswers NetJoint.
Import ListNotations.
Open Scope string_scope.
Open Scope list_scope.
Open Scope Z_scope.

Section NB.
Variable n : network xnum.
Hypothesis Hwf : wf_network n.
Notation vars := (n_vars n).
Hypothesis Hco : complete n.
Hypothesis Hnn : nonnegative n.
Notation wt := (mass n (fun _ => false)).

Lemma mass_same ign p q : (forall s, In s (worlds_of n) -> p s = q s) -> mass n ign p = mass n ign q.
Proof. intros H. unfold mass. f_equal. f_equal. apply filter_ext_in'. auto. Qed.

Lemma agrees_more ev x o v i s : var_named vars x = Some v -> nth_error (nv_outcomes v) i = Some o ->
  agrees vars (ev ++ [(x, o)]) s = agrees vars ev s && (s x =? i)%nat.
Proof.
  intros Hv Hi. unfold agrees. rewrite forallb_app. f_equal. cbn [forallb]. rewrite Hv, andb_true_r.
  assert (Hin : In v vars) by (apply (var_named_in n Hwf) in Hv; tauto).
  destruct (nth_error (nv_outcomes v) (s x)) as [o'|] eqn:E.
  - destruct (String.eqb_spec o' o) as [->|Hne].
    + symmetry. apply Nat.eqb_eq. apply (proj1 (NoDup_nth_error (nv_outcomes v)) (wn_distinct _ Hwf v Hin)); [|congruence].
      apply nth_error_Some. congruence.
    + symmetry. apply Nat.eqb_neq. intros E0. rewrite E0 in E. congruence.
  - symmetry. apply Nat.eqb_neq. intros E0. rewrite E0 in E. congruence.
Qed.

Lemma more_observations ev x o v i : valid_observations n ev -> var_named vars x = Some v -> nv_type v <> Utility -> nth_error (nv_outcomes v) i = Some o ->
  ~ In x (map fst ev) -> valid_observations n (ev ++ [(x, o)]).
Proof.
  intros (Hnd & Hall) Hv Ht Hi Hne. split.
  - rewrite map_app. cbn [map fst]. apply (Permutation_NoDup (l := x :: map fst ev)); [apply Permutation_cons_append|constructor; auto].
  - intros y p Hin. apply in_app_or in Hin as [Hin|[E|[]]]; [apply Hall; auto|]. inversion E; subst. exists v. split; auto. split; auto. eapply nth_error_In; eauto.
Qed.

Lemma more_askable ev x o q : askable n (fun _ => false) ev q -> q <> x -> askable n (fun _ => false) (ev ++ [(x, o)]) q.
Proof.
  intros (H1 & H2 & H3) Hne. split; [exact H1|]. split; [exact H2|]. rewrite map_app. intros Hin. apply in_app_or in Hin as [Hin|[E|[]]]; auto.
Qed.

Lemma query_answered sc ev query q k : valid_observations n ev -> (forall q, In q query -> askable n (fun _ => false) ev q) -> wt (agrees vars ev) <> 0%Qc -> In q query ->
  (k < num_outcomes vars q)%nat -> answered (net_solve_query sc n ev query false) q k (posterior n (fun _ => false) ev q k).
Proof.
  intros Hv Hask Hm Hq Hk. destruct (query_exact n Hwf sc false ev query Hco Hv Hask) as (n' & res & f & E & Hs).
  destruct (proj1 (Hs q) Hq) as (l & El & Hd & _). exists n', res, f, l. split; auto. split; auto. rewrite (Hd Hm).
  rewrite nth_error_map, (nth_error_nth' _ 0%nat) by (rewrite seq_length; auto). rewrite seq_nth by auto. reflexivity.
Qed.

Lemma posterior_more ev x o v i y j : var_named vars x = Some v -> nth_error (nv_outcomes v) i = Some o ->
  posterior n (fun _ => false) (ev ++ [(x, o)]) y j =
  (wt (fun s => agrees vars ev s && (s x =? i)%nat && (s y =? j)%nat) / wt (fun s => agrees vars ev s && (s x =? i)%nat))%Qc.
Proof.
  intros Hv Hi. unfold posterior. f_equal; apply mass_same; intros s _; rewrite (agrees_more ev x o v i s Hv Hi); auto.
Qed.
Lemma mass_more ev x o v i : var_named vars x = Some v -> nth_error (nv_outcomes v) i = Some o ->
  wt (agrees vars (ev ++ [(x, o)])) = wt (fun s => agrees vars ev s && (s x =? i)%nat).
Proof. intros Hv Hi. apply mass_same. intros s _. apply agrees_more with (v := v); auto. Qed.

Lemma div_nonzero a b : b <> 0%Qc -> (a / b)%Qc <> 0%Qc -> a <> 0%Qc.
Proof. intros Hb H ->. apply H. unfold Qcdiv. ring. Qed.

Lemma index_lt x v i o : var_named vars x = Some v -> nth_error (nv_outcomes v) i = Some o -> (i < num_outcomes vars x)%nat.
Proof. intros Hv Hi. unfold num_outcomes. rewrite Hv. apply nth_error_Some. congruence. Qed.

(** Bayes' rule. *)
Theorem bayes sc1 sc2 sc3 ev x y vx vy i j ox oy : valid_observations n ev -> wt (agrees vars ev) <> 0%Qc ->
  var_named vars x = Some vx -> nth_error (nv_outcomes vx) i = Some ox -> var_named vars y = Some vy -> nth_error (nv_outcomes vy) j = Some oy -> x <> y ->
  askable n (fun _ => false) ev x -> askable n (fun _ => false) ev y ->
  exists px py, answered (net_solve_query sc1 n ev [x; y] false) x i px /\ answered (net_solve_query sc1 n ev [x; y] false) y j py /\
    (px <> 0%Qc -> py <> 0%Qc -> exists pyx pxy,
       answered (net_solve_query sc2 n (ev ++ [(x, ox)]) [y] false) y j pyx /\ answered (net_solve_query sc3 n (ev ++ [(y, oy)]) [x] false) x i pxy /\
       (px * pyx = py * pxy)%Qc).
Proof.
  intros Hv Hm Hx Hi Hy Hj Hxy Hax Hay.
  assert (Hask : forall q, In q [x; y] -> askable n (fun _ => false) ev q) by (intros q [<-|[<-|[]]]; auto).
  exists (posterior n (fun _ => false) ev x i), (posterior n (fun _ => false) ev y j).
  split; [apply query_answered; auto; [left; auto|eapply index_lt; eauto]|].
  split; [apply query_answered; auto; [right; left; auto|eapply index_lt; eauto]|].
  intros Hpx Hpy. assert (Hmx := div_nonzero _ _ Hm Hpx). assert (Hmy := div_nonzero _ _ Hm Hpy).
  assert (Htx : nv_type vx <> Utility). { destruct Hax as ((v & E & Ht) & _). congruence. }
  assert (Hty : nv_type vy <> Utility). { destruct Hay as ((v & E & Ht) & _). congruence. }
  exists (posterior n (fun _ => false) (ev ++ [(x, ox)]) y j), (posterior n (fun _ => false) (ev ++ [(y, oy)]) x i).
  split; [|split].
  - apply query_answered; [eapply more_observations; eauto; apply Hax| | |left; auto|eapply index_lt; eauto].
    + intros q [<-|[]]. apply more_askable; auto.
    + rewrite (mass_more ev x ox vx i) by auto. auto.
  - apply query_answered; [eapply more_observations; eauto; apply Hay| | |left; auto|eapply index_lt; eauto].
    + intros q [<-|[]]. apply more_askable; auto.
    + rewrite (mass_more ev y oy vy j) by auto. auto.
  - rewrite (posterior_more ev x ox vx i y j), (posterior_more ev y oy vy j x i) by auto. unfold posterior.
    rewrite (mass_same (fun _ => false) (fun s => agrees vars ev s && (s y =? j)%nat && (s x =? i)%nat) (fun s => agrees vars ev s && (s x =? i)%nat && (s y =? j)%nat))
      by (intros s _; rewrite <- !andb_assoc; f_equal; apply andb_comm).
    field. repeat split; auto.
Qed.

(** The mass of an event, split by the outcomes of a variable. *)
Lemma mass_cases x v event : In v vars -> nv_name v = x -> nv_type v <> Utility ->
  wt event = qsum (map (fun k => wt (fun s => event s && (s x =? k)%nat)) (seq 0 (List.length (nv_outcomes v)))).
Proof.
  intros Hin Hn Ht. unfold mass at 1. fold (sum_over n (joint n (fun _ => false)) event). rewrite (sum_over_if n).
  rewrite (qsum_ext _ (fun k => qsum (map (fun s => if event s && (s x =? k)%nat then joint n (fun _ => false) s else 0%Qc) (worlds_of n)))).
  2:{ intros k _. unfold mass. fold (sum_over n (joint n (fun _ => false)) (fun s => event s && (s x =? k)%nat)). apply (sum_over_if n). }
  rewrite qsum_swap. apply qsum_ext. intros s Hs.
  rewrite (qsum_ext _ (fun k => if (k =? s x)%nat then (if event s then joint n (fun _ => false) s else 0%Qc) else 0%Qc)).
  - rewrite (qsum_pick (fun _ => if event s then joint n (fun _ => false) s else 0%Qc)); auto. subst x. apply (NetMarkov.world_proper n Hwf s Hs). auto.
  - intros k _. rewrite (Nat.eqb_sym (s x) k). destruct (event s), (k =? s x)%nat; auto.
Qed.

Lemma mass_zero p q : (forall s, q s = true -> p s = true) -> wt p = 0%Qc -> wt q = 0%Qc.
Proof.
  intros H Hp. apply Qcle_antisym; [|apply mass_nonneg; auto]. rewrite <- Hp. apply mass_le; auto.
Qed.

(** The law of total probability. *)
Theorem total_probability sc1 sc2 ev x y vx j : valid_observations n ev -> wt (agrees vars ev) <> 0%Qc ->
  var_named vars x = Some vx -> x <> y -> askable n (fun _ => false) ev x -> askable n (fun _ => false) ev y -> (j < num_outcomes vars y)%nat ->
  exists py (px pyx : nat -> Qc), answered (net_solve_query sc1 n ev [x; y] false) y j py /\
    (forall i, (i < List.length (nv_outcomes vx))%nat -> answered (net_solve_query sc1 n ev [x; y] false) x i (px i)) /\
    (forall i o, nth_error (nv_outcomes vx) i = Some o -> px i <> 0%Qc -> answered (net_solve_query (sc2 i) n (ev ++ [(x, o)]) [y] false) y j (pyx i)) /\
    py = qsum (map (fun i => px i * pyx i)%Qc (seq 0 (List.length (nv_outcomes vx)))).
Proof.
  intros Hv Hm Hx Hxy Hax Hay Hj.
  assert (Hask : forall q, In q [x; y] -> askable n (fun _ => false) ev q) by (intros q [<-|[<-|[]]]; auto).
  assert (Htx : nv_type vx <> Utility). { destruct Hax as ((v & E & Ht) & _). congruence. }
  assert (Hn : num_outcomes vars x = List.length (nv_outcomes vx)) by (unfold num_outcomes; rewrite Hx; auto).
  exists (posterior n (fun _ => false) ev y j), (posterior n (fun _ => false) ev x),
    (fun i => (wt (fun s => agrees vars ev s && (s x =? i)%nat && (s y =? j)%nat) / wt (fun s => agrees vars ev s && (s x =? i)%nat))%Qc).
  split; [apply query_answered; auto; right; left; auto|].
  split; [intros i Hi; apply query_answered; auto; [left; auto|lia]|].
  split.
  - intros i o Hi Hp. rewrite <- (posterior_more ev x o vx i y j) by auto. apply query_answered; auto.
    + eapply more_observations; eauto. apply Hax.
    + intros q [<-|[]]. apply more_askable; auto.
    + rewrite (mass_more ev x o vx i) by auto. exact (div_nonzero _ _ Hm Hp).
    + left; auto.
  - unfold posterior at 1. rewrite (mass_cases x vx (fun s => agrees vars ev s && (s y =? j)%nat)) by (auto; apply (var_named_in n Hwf) in Hx; tauto).
    unfold Qcdiv at 1. rewrite <- qsum_scale_r. apply qsum_ext. intros i Hi.
    rewrite (mass_same (fun _ => false) (fun s => agrees vars ev s && (s y =? j)%nat && (s x =? i)%nat) (fun s => agrees vars ev s && (s x =? i)%nat && (s y =? j)%nat))
      by (intros s _; rewrite <- !andb_assoc; f_equal; apply andb_comm).
    unfold posterior. set (a := wt (fun s => agrees vars ev s && (s x =? i)%nat && (s y =? j)%nat)). set (b := wt (fun s => agrees vars ev s && (s x =? i)%nat)).
    destruct (Qc_eq_dec b 0%Qc) as [Hb|Hb].
    + assert (a = 0%Qc) as ->. { eapply mass_zero; [|exact Hb]. intros s H. apply andb_true_iff in H. tauto. } rewrite Hb. unfold Qcdiv. ring.
    + field. auto.
Qed.

(** Observing what is certain changes nothing. *)
Theorem certain_evidence sc1 sc2 ev x v i o query : valid_observations n ev -> wt (agrees vars ev) <> 0%Qc ->
  var_named vars x = Some v -> nth_error (nv_outcomes v) i = Some o -> askable n (fun _ => false) ev x ->
  (forall q, In q query -> askable n (fun _ => false) ev q /\ q <> x) ->
  answered (net_solve_query sc1 n ev (x :: query) false) x i 1%Qc ->
  exists n1 res1 f1 n2 res2 f2, net_solve_query sc1 n ev (x :: query) false = (n1, Ok (res1, f1)) /\
    net_solve_query sc2 n (ev ++ [(x, o)]) query false = (n2, Ok (res2, f2)) /\
    forall q, In q query -> sget_map res1 q <> None /\ sget_map res2 q = sget_map res1 q.
Proof.
  intros Hv Hm Hx Hi Hax Hq Hone.
  assert (Htx : nv_type v <> Utility). { destruct Hax as ((w & E & Ht) & _). congruence. }
  assert (Hask : forall q, In q (x :: query) -> askable n (fun _ => false) ev q) by (intros q [<-|H]; auto; apply Hq; auto).
  assert (Hp : posterior n (fun _ => false) ev x i = 1%Qc).
  { destruct Hone as (n1 & r1 & f1 & l1 & E1 & G1 & H1).
    destruct (query_answered sc1 ev (x :: query) x i Hv Hask Hm (or_introl eq_refl) (index_lt _ _ _ _ Hx Hi)) as (n2 & r2 & f2 & l2 & E2 & G2 & H2).
    rewrite E1 in E2. assert (r1 = r2) by congruence. assert (l1 = l2) by congruence. assert (Some (Fin 1%Qc) = Some (Fin (posterior n (fun _ => false) ev x i))) as Hsm by congruence. symmetry. apply Fin_inj. exact (f_equal (fun z => match z with Some w => w | None => NaN end) Hsm). }
  assert (Heq : wt (fun s => agrees vars ev s && (s x =? i)%nat) = wt (agrees vars ev)).
  { unfold posterior in Hp. set (a := wt (fun s => agrees vars ev s && (s x =? i)%nat)) in *. set (b := wt (agrees vars ev)) in *.
    transitivity (a / b * b)%Qc; [field; auto|rewrite Hp; ring]. }
  assert (Hall : forall event, wt (fun s => agrees vars ev s && (s x =? i)%nat && event s) = wt (fun s => agrees vars ev s && event s)).
  { intros event.
    assert (Hin : In v vars /\ nv_name v = x) by (apply (var_named_in n Hwf); auto). destruct Hin as (Hin & Hname).
    assert (Hzero : forall k, In k (seq 0 (List.length (nv_outcomes v))) -> k <> i -> wt (fun s => agrees vars ev s && (s x =? k)%nat) = 0%Qc).
    { intros k Hk Hki. apply Qcle_antisym; [|apply mass_nonneg; auto].
      assert (Hsum := mass_cases x v (agrees vars ev) Hin Hname Htx). rewrite <- Heq in Hsum.
      assert (Hil : (i < List.length (nv_outcomes v))%nat) by (apply nth_error_Some; congruence).
      apply in_split in Hk as (l1 & l2 & Hl). 
      assert (Hii : In i (l1 ++ l2)). { assert (Hin' : In i (l1 ++ k :: l2)) by (rewrite <- Hl; apply in_seq; lia). apply in_app_or in Hin' as [H|[H|H]]; [apply in_or_app; auto|congruence|apply in_or_app; auto]. }
      apply in_split in Hii as (m1 & m2 & Hm2).
      assert (Hperm : Permutation (seq 0 (List.length (nv_outcomes v))) (k :: i :: m1 ++ m2)).
      { rewrite Hl. rewrite <- Permutation_middle, Hm2. constructor. rewrite <- Permutation_middle. auto. }
      rewrite (qsum_perm _ _ (Permutation_map _ Hperm)) in Hsum. cbn [map] in Hsum. rewrite !qsum_one in Hsum.
      set (r := qsum (map (fun k => wt (fun s => agrees vars ev s && (s x =? k)%nat)) (m1 ++ m2))) in *.
      set (b := wt (fun s => agrees vars ev s && (s x =? i)%nat)) in *. set (a := wt (fun s => agrees vars ev s && (s x =? k)%nat)) in *.
      assert (Hr : (0 <= r)%Qc). { apply qsum_nonneg. intros z Hz. apply in_map_iff in Hz as (? & <- & _). apply mass_nonneg; auto. }
      assert (Ea : (a + r)%Qc = 0%Qc). { transitivity ((a + (b + r)) - b)%Qc; [ring|rewrite <- Hsum; ring]. }
      rewrite <- Ea. rewrite <- (Qcplus_0_r a) at 1. apply Qcplus_le_compat; [apply Qcle_refl|auto]. }
    rewrite (mass_cases x v (fun s => agrees vars ev s && event s) Hin Hname Htx).
    rewrite (qsum_ext _ (fun k => if (k =? i)%nat then wt (fun s => agrees vars ev s && (s x =? i)%nat && event s) else 0%Qc)).
    - symmetry. apply (qsum_pick (fun _ => wt (fun s => agrees vars ev s && (s x =? i)%nat && event s))). apply nth_error_Some. congruence.
    - intros k Hk. destruct (Nat.eqb_spec k i) as [->|Hki].
      + apply mass_same. intros s _. rewrite <- !andb_assoc. f_equal. apply andb_comm.
      + eapply mass_zero; [|apply (Hzero k Hk Hki)]. intros s H. apply andb_true_iff in H as [H1 H2]. apply andb_true_iff in H1 as [H1 _]. rewrite H1, H2. auto. }
  destruct (query_exact n Hwf sc1 false ev (x :: query) Hco Hv Hask) as (n1 & r1 & f1 & E1 & S1).
  assert (Hv2 : valid_observations n (ev ++ [(x, o)])) by (eapply more_observations; eauto; apply Hax).
  assert (Hask2 : forall q, In q query -> askable n (ignored_by false (ev ++ [(x, o)])) (ev ++ [(x, o)]) q).
  { intros q Hin. destruct (Hq q Hin). apply more_askable; auto. }
  destruct (query_exact n Hwf sc2 false (ev ++ [(x, o)]) query Hco Hv2 Hask2) as (n2 & r2 & f2 & E2 & S2).
  exists n1, r1, f1, n2, r2, f2. split; auto. split; auto. intros q Hin.
  destruct (proj1 (S1 q) (or_intror Hin)) as (l1 & G1 & D1 & _). destruct (proj1 (S2 q) Hin) as (l2 & G2 & D2 & _).
  rewrite G1, G2. split; [congruence|]. f_equal. rewrite (D1 Hm).
  assert (Hm2 : mass n (ignored_by false (ev ++ [(x, o)])) (agrees vars (ev ++ [(x, o)])) <> 0%Qc).
  { change (wt (agrees vars (ev ++ [(x, o)])) <> 0%Qc). rewrite (mass_more ev x o v i) by auto. congruence. }
  rewrite (D2 Hm2). apply map_ext. intros k. f_equal.
  change (posterior n (fun _ => false) (ev ++ [(x, o)]) q k = posterior n (fun _ => false) ev q k).
  rewrite (posterior_more ev x o v i q k) by auto. unfold posterior. rewrite (Hall (fun s => (s q =? k)%nat)), Heq. auto.
Qed.
End NB.
